(** * OwnRead: the value an object stands for. *)
From Verif Require Import Base BaseFacts Time Parsers Engine Own OwnSpec OwnFacts.

Scheme reads_ind2 := Induction for reads Sort Prop
  with reads_list_ind2 := Induction for reads_list Sort Prop
  with reads_mems_ind2 := Induction for reads_mems Sort Prop.
Combined Scheme reads_mut from reads_ind2, reads_list_ind2, reads_mems_ind2.

(** What is closed under members and unchanged reads as before. *)
Lemma reads_keep h h' (Q : nat -> Prop) : (forall y c, Q y -> cell_of h y = Some c -> cell_of h' y = Some c /\ forall k, In k (children c) -> Q k) ->
  (forall x v, reads h x v -> (forall i, x = Some i -> Q i) -> reads h' x v) /\
  (forall xs l, reads_list h xs l -> (forall i, In (Some i) xs -> Q i) -> reads_list h' xs l) /\
  (forall ms o, reads_mems h ms o -> (forall k i, In (k, Some i) ms -> Q i) -> reads_mems h' ms o).
Proof.
  intros HQ.
  assert (HK : forall xs i, In (Some i) xs -> In i (children (CArr xs))) by (intros xs i Hi; cbn; apply in_flat_map; exists (Some i); split; auto; left; auto).
  apply (reads_mut h (fun x v _ => (forall i, x = Some i -> Q i) -> reads h' x v)
    (fun xs l _ => (forall i, In (Some i) xs -> Q i) -> reads_list h' xs l) (fun ms o _ => (forall k i, In (k, Some i) ms -> Q i) -> reads_mems h' ms o)).
  - intros _. constructor.
  - intros i v Hc Hv Hq. destruct (HQ i _ (Hq i eq_refl) Hc) as (H1 & _). constructor; auto.
  - intros i xs l Hc _ IH Hq. destruct (HQ i _ (Hq i eq_refl) Hc) as (H1 & H2). econstructor; [exact H1|]. apply IH. intros k Hk. apply H2. auto.
  - intros i ms o Hc _ IH Hq. destruct (HQ i _ (Hq i eq_refl) Hc) as (H1 & H2). econstructor; [exact H1|]. apply IH. intros k i' Hk. apply H2. eapply kid_in; exact Hk.
  - constructor.
  - intros x xs v l _ IH1 _ IH2 Hq. constructor; [apply IH1; intros i ->; apply Hq; left; auto|apply IH2; intros i Hi; apply Hq; right; auto].
  - constructor.
  - intros k x ms v o _ IH1 _ IH2 Hq. constructor; [apply IH1; intros i ->; apply (Hq k); left; auto|apply IH2; intros k' i Hi; apply (Hq k'); right; auto].
Qed.
(** In two exact heaps of which the second is the first with only [j] written to. *)
Definition sound (h h' : jheap) (j : option nat) : Prop :=
  (exists R, exact h R) /\ (exists R, exact h' R) /\ surv (List.length h) j h h' /\ unref j h'.
Lemma sound_closed h h' j : sound h h' j -> forall y c, (alive h' y /\ y < List.length h /\ j <> Some y) -> cell_of h y = Some c ->
  cell_of h' y = Some c /\ forall k, In k (children c) -> alive h' k /\ k < List.length h /\ j <> Some k.
Proof.
  intros ((R & HE) & (R' & HE') & HS & HU) y c (Ha & Hl & Hn) Hc. apply alive_cell in Ha as (c' & Hc'). pose proof (HS y c' Hl Hn Hc') as He. rewrite Hc in He. injection He as <-.
  split; auto. intros k Hk. pose proof (kid_refs _ _ _ _ Hc' Hk) as Hr. pose proof (kid_refs _ _ _ _ Hc Hk) as Hr0.
  destruct (held_alive h' R' k HE' (or_introl Hr)) as (o & _ & Ho & _). split; [exists o; exact Ho|]. split; [eapply exact_lt; [exact HE|auto]|].
  intros ->. exact (HU k eq_refl Hr).
Qed.
Lemma reads_lt h x v R : exact h R -> reads h x v -> forall i, x = Some i -> i < List.length h.
Proof.
  intros HE H i ->. assert (Hc : exists c, cell_of h i = Some c) by (inversion H; eauto). destruct Hc as (c & Hc). unfold cell_of in Hc.
  apply nth_error_Some. destruct (nth_error h i); congruence.
Qed.
Lemma reads_step h h' j x v : sound h h' j -> reads h x v -> (forall i, x = Some i -> alive h' i /\ j <> Some i) -> reads h' x v.
Proof.
  intros HS Hr Hx. apply (proj1 (reads_keep h h' _ (sound_closed h h' j HS)) x v Hr). intros i ->. destruct (Hx i eq_refl). split; auto. split; auto.
  destruct HS as ((R & HE) & _). eapply reads_lt; eauto.
Qed.
Lemma held_live h R i : exact h R -> In i R -> alive h i.
Proof. intros HE Hi. destruct (held_alive h R i HE (or_intror Hi)) as (o & _ & Hn & _). exists o. exact Hn. Qed.
(** The members of an object (not [j]'s own cell) likewise; for those of [j] that are still there. *)
Lemma mems_step h h' j ms o : sound h h' j -> reads_mems h ms o -> (forall k i, In (k, Some i) ms -> alive h' i /\ j <> Some i) -> reads_mems h' ms o.
Proof.
  intros HS Hr Hx. destruct HS as ((R & HE) & HS'). assert (HS : sound h h' j) by (split; eauto).
  induction Hr as [|k x ms v o H1 H2 IH]; constructor.
  - apply (reads_step h h' j); auto. intros i ->. apply (Hx k). left; auto.
  - apply IH. intros k' i Hi. apply (Hx k'). right; auto.
Qed.
Lemma list_step h h' j xs l : sound h h' j -> reads_list h xs l -> (forall i, In (Some i) xs -> alive h' i /\ j <> Some i) -> reads_list h' xs l.
Proof.
  intros HS Hr Hx. induction Hr as [|x xs v l H1 H2 IH]; constructor.
  - apply (reads_step h h' j); auto. intros i ->. apply Hx. left; auto.
  - apply IH. intros i Hi. apply Hx. right; auto.
Qed.
Lemma reads_mems_app h ms ms' o o' : reads_mems h ms o -> reads_mems h ms' o' -> reads_mems h (ms ++ ms') (o ++ o').
Proof. intros H H'. induction H; cbn; auto. constructor; auto. Qed.
Lemma reads_list_app h xs xs' l l' : reads_list h xs l -> reads_list h xs' l' -> reads_list h (xs ++ xs') (l ++ l').
Proof. intros H H'. induction H; cbn; auto. constructor; auto. Qed.
Lemma reads_set_member h k v x : forall ms o, reads_mems h ms o -> reads h x v -> forall ms' old, set_member ms k x = (ms', old) -> reads_mems h ms' (obj_add o k v).
Proof.
  intros ms o H. induction H as [|k0 x0 ms v0 o H1 H2 IH]; intros Hx ms' old Hs; cbn [set_member obj_add] in *.
  - injection Hs as <- <-. constructor; auto. constructor.
  - assert (Hsym : text_eqb k0 k = text_eqb k k0).
    { destruct (text_eqb k0 k) eqn:E1, (text_eqb k k0) eqn:E2; auto; [apply text_eqb_true in E1; subst; rewrite text_eqb_refl in E2; discriminate|apply text_eqb_true in E2; subst; rewrite text_eqb_refl in E1; discriminate]. }
    rewrite <- Hsym. destruct (text_eqb k0 k).
    + injection Hs as <- <-. constructor; auto.
    + destruct (set_member ms k x) as [r old']. injection Hs as <- <-. constructor; auto. eapply IH; eauto.
Qed.

(** ** The operations *)
Lemma sound_keep h h' R R' : exact h R -> exact h' R' -> (forall y c, cell_of h' y = Some c -> cell_of h y = Some c) -> sound h h' None.
Proof. intros HE HE' HS. split; [eauto|]. split; [eauto|]. split; [intros y c _ _; apply HS|intros i Hi; discriminate]. Qed.
Lemma sound_calm h h' R R' j : exact h R -> exact h' R' -> calm (List.length h) j h h' -> unref j h' -> sound h h' j.
Proof. intros HE HE' (HS & _) HU. split; [eauto|]. split; [eauto|]. split; auto. Qed.
Lemma held_reads h h' R R' j x v : exact h R -> exact h' R' -> calm (List.length h) j h h' -> unref j h' -> reads h x v ->
  (forall i, x = Some i -> In i R' /\ j <> Some i) -> reads h' x v.
Proof. intros HE HE' HC HU Hr Hx. apply (reads_step h h' j); auto; [eapply sound_calm; eauto|]. intros i Hi. destruct (Hx i Hi). split; auto. eapply held_live; eauto. Qed.
Lemma written_obj h h' j ms o : sound h h' (Some j) -> cell_of h' j = Some (CObj ms) -> reads_mems h ms o -> reads h' (Some j) (JObj o).
Proof.
  intros HS Hc Hr. econstructor; [exact Hc|]. eapply mems_step; [exact HS|exact Hr|]. intros k i Hi. pose proof (kid_refs _ _ _ _ Hc (kid_in _ _ _ Hi)) as Hk.
  destruct HS as (_ & (R' & HE') & _ & HU). destruct (held_alive h' R' i HE' (or_introl Hk)) as (ob & _ & Hn & _). split; [exists ob; exact Hn|].
  intros [= ->]. exact (HU i eq_refl Hk).
Qed.
Lemma written_arr h h' j xs l : sound h h' (Some j) -> cell_of h' j = Some (CArr xs) -> reads_list h xs l -> reads h' (Some j) (JArr l).
Proof.
  intros HS Hc Hr. econstructor; [exact Hc|]. eapply list_step; [exact HS|exact Hr|]. intros i Hi.
  assert (Hk : In i (refs h')). { eapply kid_refs; [exact Hc|]. cbn. apply in_flat_map. exists (Some i). split; auto. left; auto. }
  destruct HS as (_ & (R' & HE') & _ & HU). destruct (held_alive h' R' i HE' (or_introl Hk)) as (ob & _ & Hn & _). split; [exists ob; exact Hn|].
  intros [= ->]. exact (HU i eq_refl Hk).
Qed.
Lemma cell_get h i c : cell_of h i = Some c -> exists o, jget h i = EOk o /\ nth_error h i = Some (Some o) /\ j_cell o = c.
Proof.
  unfold cell_of, jget. destruct (nth_error h i) as [[o|]|]; try discriminate. intros [= <-]. eauto.
Qed.
Lemma reads_obj_inv h i o : reads h (Some i) (JObj o) -> exists ms, cell_of h i = Some (CObj ms) /\ reads_mems h ms o.
Proof. intros H. inversion H; subst; [destruct H2|eauto]. Qed.
Lemma reads_arr_inv h i l : reads h (Some i) (JArr l) -> exists xs, cell_of h i = Some (CArr xs) /\ reads_list h xs l.
Proof. intros H. inversion H; subst; [destruct H2|eauto]. Qed.

Lemma add_new_reads h R j k v o w : exact h (opt_list v ++ R) -> In j R -> unref (Some j) h -> v <> Some j ->
  reads h (Some j) (JObj o) -> reads h v w -> exists h', jadd_new h (Some j) k v = EOk h' /\ reads h' (Some j) (JObj (obj_add_new o k w)).
Proof.
  intros HE Hj HU Hv Hr Hw. destruct (reads_obj_inv _ _ _ Hr) as (ms & Hc & Hms). destruct (cell_get _ _ _ Hc) as (ob & Hg & Hn & Hcell).
  assert (E : exists h', jadd_new h (Some j) k v = EOk h') by (cbn [jadd_new]; rewrite Hg; cbn [ebind]; rewrite Hcell; eauto). destruct E as (h' & E).
  exists h'. split; auto. pose proof (jadd_new_exact h R (Some j) k v HE) as HF. rewrite E in HF. assert (HE' : exact h' R) by (apply HF; intros i [= <-]; exact Hj). clear HF.
  pose proof (calm_jadd_new (List.length h) h j k v h' E (fun _ => Hv)) as HC.
  assert (HU' : unref (Some j) h').
  { apply (unref_grown _ (Some j) _ _ (grown_jadd_new _ _ _ _ _ E)); auto. intros i [= <-]. split; [eapply exact_lt; [exact HE|right; apply in_or_app; right; exact Hj]|].
    destruct v as [y|]; cbn; [intros [<-|[]]; congruence|tauto]. }
  apply (written_obj h h' j (ms ++ [(k, v)])); [eapply sound_calm; eauto| |].
  - cbn [jadd_new] in E. rewrite Hg in E. cbn [ebind] in E. rewrite Hcell in E. injection E as <-. unfold cell_of. rewrite jset_nth, Nat.eqb_refl, Hn. reflexivity.
  - apply reads_mems_app; auto. constructor; auto. constructor.
Qed.
Lemma jadd_ok h R j k v ms : exact h (opt_list v ++ R) -> In j R -> cell_of h j = Some (CObj ms) ->
  exists h', jadd h (Some j) k v = EOk h' /\ exact h' R /\ cell_of h' j = Some (CObj (fst (set_member ms k v))).
Proof.
  intros HE Hj Hc. destruct (cell_get _ _ _ Hc) as (ob & Hg & Hn & Hcell). cbn [jadd]. rewrite Hg. cbn [ebind]. rewrite Hcell.
  destruct (set_member ms k v) as [ms' old] eqn:Es. cbn [fst].
  destruct (jput_exact (jset h j (Some {| j_rc := j_rc ob; j_cell := CObj ms' |})) R (match old with Some x => x | None => None end)) as (h' & E & HE').
  { eapply set_cell'; [exact HE|exact Hn|]. intros x. pose proof (set_member_kids k v ms ms' old Es x) as HK. rewrite Hcell. tm. destruct old as [[y|]|]; cbn [opt_list] in *; tm; lia. }
  exists h'. split; auto. split; auto. unfold jput in E. rewrite (jputs_keeps _ _ _ _ _ _ E HE' Hj). unfold cell_of. rewrite jset_nth, Nat.eqb_refl, Hn. reflexivity.
Qed.
Lemma add_reads h R j k v o w : exact h (opt_list v ++ R) -> In j R -> unref (Some j) h -> v <> Some j ->
  reads h (Some j) (JObj o) -> reads h v w -> exists h', jadd h (Some j) k v = EOk h' /\ exact h' R /\ unref (Some j) h' /\ reads h' (Some j) (JObj (obj_add o k w)).
Proof.
  intros HE Hj HU Hv Hr Hw. destruct (reads_obj_inv _ _ _ Hr) as (ms & Hc & Hms). destruct (jadd_ok h R j k v ms HE Hj Hc) as (h' & E & HE' & Hc').
  exists h'. split; auto. split; auto.
  assert (HU' : unref (Some j) h').
  { apply (unref_grown _ (Some j) _ _ (grown_jadd _ _ _ _ _ E)); auto. intros i [= <-]. split; [eapply exact_lt; [exact HE|right; apply in_or_app; right; exact Hj]|].
    destruct v as [y|]; cbn; [intros [<-|[]]; congruence|tauto]. }
  split; auto. pose proof (calm_jadd (List.length h) h j k v h' E (fun _ => Hv)) as HC.
  apply (written_obj h h' j (fst (set_member ms k v))); [exact (sound_calm h h' _ R (Some j) HE HE' HC HU')|exact Hc'|].
  destruct (set_member ms k v) as [ms' old] eqn:Es. exact (reads_set_member h k w v ms o Hms Hw ms' old Es).
Qed.
Lemma push_reads h R a v l w : exact h (opt_list v ++ R) -> In a R -> unref (Some a) h -> v <> Some a ->
  reads h (Some a) (JArr l) -> reads h v w -> exists h', jpush h a v = EOk h' /\ reads h' (Some a) (JArr (l ++ [w])).
Proof.
  intros HE Hj HU Hv Hr Hw. destruct (reads_arr_inv _ _ _ Hr) as (xs & Hc & Hxs). destruct (cell_get _ _ _ Hc) as (ob & Hg & Hn & Hcell).
  assert (E : exists h', jpush h a v = EOk h') by (unfold jpush; rewrite Hg; cbn [ebind]; rewrite Hcell; eauto). destruct E as (h' & E).
  exists h'. split; auto. pose proof (jpush_exact h R a v HE Hj) as HF. rewrite E in HF. cbn [fine] in HF.
  pose proof (calm_jpush (List.length h) h a v h' E (fun _ => Hv)) as HC.
  assert (HU' : unref (Some a) h').
  { apply (unref_grown _ (Some a) _ _ (grown_jpush _ _ _ _ E)); auto. intros i [= <-]. split; [eapply exact_lt; [exact HE|right; apply in_or_app; right; exact Hj]|].
    destruct v as [y|]; cbn; [intros [<-|[]]; congruence|tauto]. }
  apply (written_arr h h' a (xs ++ [v])); [eapply sound_calm; eauto| |].
  - unfold jpush in E. rewrite Hg in E. cbn [ebind] in E. rewrite Hcell in E. injection E as <-. unfold cell_of. rewrite jset_nth, Nat.eqb_refl, Hn. reflexivity.
  - apply reads_list_app; auto. constructor; auto. constructor.
Qed.
Lemma reads_prefix h t : (forall x v, reads h x v -> reads (h ++ t) x v) /\ (forall xs l, reads_list h xs l -> reads_list (h ++ t) xs l) /\ (forall ms o, reads_mems h ms o -> reads_mems (h ++ t) ms o).
Proof.
  destruct (reads_keep h (h ++ t) (fun _ => True)) as (H1 & H2 & H3).
  { intros y c _ Hc. split; auto. rewrite app_cell; auto. unfold cell_of in Hc. apply nth_error_Some. destruct (nth_error h y); congruence. }
  split; [|split]; intros; auto.
Qed.
Lemma jnew_reads : forall v h x h', jnew v h = (x, h') -> reads h' x v.
Proof.
  assert (HN : forall (h : jheap) c, cell_of (h ++ [Some {| j_rc := 1; j_cell := c |}]) (List.length h) = Some c).
  { intros h c. unfold cell_of. rewrite nth_error_app2, Nat.sub_diag by lia. reflexivity. }
  fix IH 1. intros v h x h' H. destruct v as [|b|z|rp|s|l|l]; try (cbn in H; injection H as <- <-; constructor; [apply HN|exact I]).
  - cbn in H. injection H as <- <-. constructor.
  - cbn [jnew] in H. set (go := (fix go (l : list json) (h : jheap) {struct l} := match l with
                       | [] => ([], h)
                       | a :: l' => let (x, h1) := jnew a h in let (xs, h2) := go l' h1 in (x :: xs, h2)
                       end)) in H.
    assert (HG : forall l h xs h', go l h = (xs, h') -> reads_list h' xs l /\ exists t, h' = h ++ t).
    { clear - IH. induction l as [|a l IHl]; intros h xs h' H; cbn in H.
      - injection H as <- <-. split; [constructor|exists []; rewrite app_nil_r; reflexivity].
      - destruct (jnew a h) as [x h1] eqn:E1. destruct (jnew_prefix _ _ _ _ E1) as (t1 & Ht1). pose proof (IH _ _ _ _ E1) as Hr.
        destruct (go l h1) as [xs1 h2] eqn:E2. injection H as <- <-. destruct (IHl _ _ _ E2) as (Hl & t2 & Ht2). split.
        + constructor; auto. rewrite Ht2. apply reads_prefix. exact Hr.
        + exists (t1 ++ t2). rewrite Ht2, Ht1. symmetry; apply app_assoc. }
    destruct (go l h) as [xs h1] eqn:E. destruct (HG _ _ _ _ E) as (Hl & _). cbn in H. injection H as <- <-.
    econstructor; [apply HN|]. apply reads_prefix. exact Hl.
  - cbn [jnew] in H. set (go := (fix go (l : list (text * json)) (h : jheap) {struct l} := match l with
                       | [] => ([], h)
                       | (k, a) :: l' => let (x, h1) := jnew a h in let (ms, h2) := go l' h1 in ((k, x) :: ms, h2)
                       end)) in H.
    assert (HG : forall l h xs h', go l h = (xs, h') -> reads_mems h' xs l /\ exists t, h' = h ++ t).
    { clear - IH. induction l as [|[k a] l IHl]; intros h xs h' H; cbn in H.
      - injection H as <- <-. split; [constructor|exists []; rewrite app_nil_r; reflexivity].
      - destruct (jnew a h) as [x h1] eqn:E1. destruct (jnew_prefix _ _ _ _ E1) as (t1 & Ht1). pose proof (IH _ _ _ _ E1) as Hr.
        destruct (go l h1) as [xs1 h2] eqn:E2. injection H as <- <-. destruct (IHl _ _ _ E2) as (Hl & t2 & Ht2). split.
        + constructor; auto. rewrite Ht2. apply reads_prefix. exact Hr.
        + exists (t1 ++ t2). rewrite Ht2, Ht1. symmetry; apply app_assoc. }
    destruct (go l h) as [xs h1] eqn:E. destruct (HG _ _ _ _ E) as (Hl & _). cbn in H. injection H as <- <-.
    econstructor; [apply HN|]. apply reads_prefix. exact Hl.
Qed.

(** ** Steps that leave cells alone *)
Lemma reads_same h h' : (forall y, cell_of h' y = cell_of h y) -> (forall x v, reads h x v -> reads h' x v) /\ (forall ms o, reads_mems h ms o -> reads_mems h' ms o).
Proof.
  intros HC. destruct (reads_keep h h' (fun _ => True)) as (H1 & _ & H3).
  { intros y c _ Hc. rewrite HC. auto. }
  split; intros; auto.
Qed.
Lemma put_reads h R v h' x w : exact h (opt_list v ++ R) -> jput h v = EOk h' -> exact h' R -> reads h x w -> (forall i, x = Some i -> In i R) -> reads h' x w.
Proof.
  intros HE E HE' Hr Hx. apply (held_reads h h' (opt_list v ++ R) R None x w HE HE'); auto.
  - eapply calm_jput; exact E.
  - intros i Hi; discriminate.
  - intros i Hi. split; [auto|discriminate].
Qed.
Lemma members_reads h v w : reads h v w -> match w with
  | JObj o => exists ms, members h v = EOk (Some ms) /\ reads_mems h ms o /\ exists i, v = Some i /\ cell_of h i = Some (CObj ms)
  | _ => members h v = EOk None end.
Proof.
  intros Hr. destruct Hr as [|i v Hc Hv|i xs l Hc Hr|i ms o Hc Hr]; cbn [members]; auto;
    destruct (cell_get _ _ _ Hc) as (ob & Hg & _ & Ho); rewrite Hg; cbn [ebind]; rewrite Ho; eauto.
  - destruct v; auto; destruct Hv.
  - exists ms. split; auto. split; auto. exists i. auto.
Qed.

(** ** fixJSON *)
Definition jrel (h : jheap) (j : option nat) (js : option fields) : Prop :=
  match j, js with None, None => True | Some i, Some o => reads h (Some i) (JObj o) | _, _ => False end.
Lemma jrel_held h h' R R' b j js : exact h R -> exact h' R' -> calm (List.length h) b h h' -> unref b h' -> jrel h j js ->
  (forall i, j = Some i -> In i R' /\ b <> Some i) -> jrel h' j js.
Proof. intros HE HE' HC HU Hr Hx. destruct j as [i|], js as [o|]; cbn in *; auto. exact (held_reads h h' R R' b _ _ HE HE' HC HU Hr Hx). Qed.
Lemma jref_reads h x h' : jref h x = EOk h' -> (forall y w, reads h y w -> reads h' y w) /\ (forall ms o, reads_mems h ms o -> reads_mems h' ms o).
Proof. intros H. apply reads_same. intros y. eapply jref_cell; exact H. Qed.
Lemma kids_live h R v ms x k : exact h R -> cell_of h v = Some (CObj ms) -> In (k, Some x) ms -> In x (refs h) /\ alive h x.
Proof.
  intros HE Hc Hi. pose proof (kid_refs _ _ _ _ Hc (kid_in _ _ _ Hi)) as Hr. split; auto.
  destruct (held_alive h R x HE (or_introl Hr)) as (o & _ & Hn & _). exists o. exact Hn.
Qed.
Lemma share_reads j v all R : j <> v -> In v R -> In j R -> forall ms l h o, exact h R -> cell_of h v = Some (CObj all) -> incl ms all ->
  reads_mems h ms l -> unref (Some j) h -> reads h (Some j) (JObj o) ->
  exists h', share_members h (Some j) ms = EOk h' /\ exact h' R /\ unref (Some j) h' /\ reads h' (Some j) (JObj (fold_left (fun o kv => obj_add o (fst kv) (snd kv)) l o)).
Proof.
  intros Hne Hv Hj ms l h. revert h l. induction ms as [|[k x] ms IH]; intros h l o HE Hc Hin Hms HU Hr; inversion Hms; subst; cbn [share_members fold_left fst snd].
  { exists h. auto. }
  assert (Hx : forall i, x = Some i -> In i (refs h)) by (intros i ->; eapply kids_live; [exact HE|exact Hc|apply Hin; left; reflexivity]).
  assert (Hxj : x <> Some j) by (intros ->; exact (HU j eq_refl (Hx j eq_refl))).
  destruct (jref_exact h R x HE) as (h1 & E1 & HE1); [intros i Hi; left; auto|]. rewrite E1. cbn [ebind].
  destruct (jref_reads _ _ _ E1) as (K1 & K2).
  assert (HU1 : unref (Some j) h1).
  { apply (unref_grown [] (Some j) h h1 (grown_jref _ _ _ E1)); auto. intros i [= <-]. split; auto. eapply exact_lt; [exact HE|auto]. }
  destruct (add_reads h1 R j k x o v0 HE1 Hj HU1 Hxj (K1 _ _ Hr)) as (h2 & E2 & HE2 & HU2 & Hr2); [apply K1; assumption|]. rewrite E2. cbn [ebind].
  assert (Hc2 : cell_of h2 v = Some (CObj all)).
  { rewrite (jadd_cell _ _ _ _ _ R v E2 HE2 Hv) by congruence. rewrite (jref_cell _ _ _ _ E1). exact Hc. }
  apply IH; auto.
  - intros y Hy. apply Hin. right; auto.
  - apply (mems_step h1 h2 (Some j)); [|apply K2; assumption|].
    + apply (sound_calm h1 h2 _ R (Some j) HE1 HE2); auto. eapply calm_jadd; eauto.
    + intros k' i Hi. destruct (kids_live h2 R v all i k' HE2 Hc2) as (G1 & G2); [apply Hin; right; exact Hi|]. split; auto.
      intros [= ->]. exact (HU2 i eq_refl G1).
Qed.
Lemma fix_reads p v j h R w js js' : j = None \/ j <> v -> exact h (opt_list v ++ R) -> (forall i, j = Some i -> In i R) -> unref j h ->
  (p_name p = None \/ reads h v w) -> jrel h j js -> fixJSON p w js = EOk js' -> exists h', fixJSONH p v j h = EOk h' /\ jrel h' j js'.
Proof.
  intros Hne HE Hj HU Hw Hjs HF. unfold fixJSON in HF. unfold fixJSONH. destruct (p_name p) as [nm|].
  2:{ injection HF as <-. destruct (jput_exact h R v HE) as (h' & E & HE'). exists h'. split; auto.
      apply (jrel_held h h' (opt_list v ++ R) R None); auto; [eapply calm_jput; exact E|intros i Hi; discriminate|]. intros i Hi. split; [auto|discriminate]. }
  destruct Hw as [Hw|Hw]; [discriminate|].
  pose proof (members_reads h v w Hw) as Hm.
  assert (HN : forall w' o, js = Some o -> reads h v w' -> exists h', jadd_new h j nm v = EOk h' /\ jrel h' j (Some (obj_add_new o nm w'))).
  { intros w' o -> Hw'. destruct j as [i|]; [|destruct Hjs]. cbn [jrel] in *.
    destruct Hne as [Hne|Hne]; [discriminate|]. apply (add_new_reads h R i nm v o w'); auto. }
  destruct (text_eqb nm (L ".")).
  - destruct w as [|b|z|rp|s|l|l]; try (rewrite Hm; cbn [ebind]; destruct js as [o|]; [|discriminate]; injection HF as <-; eapply HN; eauto).
    destruct Hm as (ms & -> & Hms & i & -> & Hc). cbn [ebind].
    destruct j as [j|].
    + destruct js as [o|]; [|destruct Hjs]. assert (Hji : j <> i) by (destruct Hne as [Hne|Hne]; congruence). cbn [jrel] in Hjs.
      assert (HF' : js' = Some (fold_left (fun o kv => obj_add o (fst kv) (snd kv)) l o)) by (destruct l; injection HF as <-; reflexivity). subst js'.
      destruct (share_reads j i ms (opt_list (Some i) ++ R) Hji (or_introl eq_refl) (or_intror (Hj j eq_refl)) ms l h o HE Hc (incl_refl _) Hms HU Hjs) as (h1 & E1 & HE1 & HU1 & Hr1).
      rewrite E1. cbn [ebind]. destruct (jput_exact h1 R (Some i) HE1) as (h2 & E2 & HE2). exists h2. split; auto. cbn [jrel].
      apply (put_reads h1 R (Some i) h2); auto.
    + destruct js as [o|]; [destruct Hjs|]. destruct l; [|discriminate]. injection HF as <-. inversion Hms; subst. cbn [share_members ebind].
      destruct (jput_exact h R (Some i) HE) as (h2 & E2 & HE2). exists h2. split; auto.
  - destruct js as [o|]; [|destruct w; discriminate].
    destruct w as [|b|z|rp|s|l|l]; try (rewrite Hm; cbn [ebind]; injection HF as <-; eapply HN; eauto).
    destruct Hm as (ms & -> & Hms & i & -> & Hc). cbn [ebind].
    assert (HD : forall a b c, ms = a :: b :: c -> exists h', jadd_new h j nm (Some i) = EOk h' /\ jrel h' j js').
    { intros a b c ->. inversion Hms as [|? ? ? ? ? Hx1 Hms1]; subst. inversion Hms1; subst. injection HF as <-. eapply HN; eauto. }
    destruct ms as [|[k x] [|b c]].
    + inversion Hms; subst. injection HF as <-. eapply HN; eauto.
    + inversion Hms as [|? ? ? v0 o0 Hx1 Hms1]; subst. inversion Hms1; subst. destruct (text_eqb k (L "..")); [|injection HF as <-; eapply HN; eauto].
      injection HF as <-.
      assert (Hx : forall q, x = Some q -> In q (refs h)) by (intros q ->; eapply kids_live; [exact HE|exact Hc|left; reflexivity]).
      destruct (jref_exact h _ x HE) as (h1 & E1 & HE1); [intros q Hq; left; auto|]. rewrite E1. cbn [ebind].
      destruct (jref_reads _ _ _ E1) as (K1 & _).
      assert (HE1' : exact h1 (opt_list (Some i) ++ opt_list x ++ R)) by (eapply exact_ext; [exact HE1|]; intros y; tm; lia).
      destruct (jput_exact h1 _ (Some i) HE1') as (h2 & E2 & HE2). rewrite E2. cbn [ebind].
      destruct j as [j|]; [|destruct Hjs]. cbn [jrel] in *.
      assert (Hxj : x <> Some j) by (intros ->; exact (HU j eq_refl (Hx j eq_refl))).
      assert (HU2 : unref (Some j) h2).
      { apply (unref_grown [] (Some j) h h2); [eapply grown_trans; [exact (grown_jref _ _ _ E1)|exact (grown_jput _ _ _ E2)]| |exact HU].
        intros q [= <-]. split; auto. eapply exact_lt; [exact HE|]. right. apply in_or_app; right; auto. }
      apply (add_new_reads h2 R j nm x o v0); auto.
      * apply (put_reads h1 _ (Some i) h2 _ _ HE1' E2 HE2); [apply K1; exact Hjs|]. intros q [= <-]. apply in_or_app; right; auto.
      * apply (put_reads h1 _ (Some i) h2 _ _ HE1' E2 HE2); [apply K1; exact Hx1|]. intros q ->. left; auto.
    + eapply HD; reflexivity.
Qed.
(** parser.c 3255-3266 *)
Lemma pick_reads pv : forall ms o h toAdd lost r w, reads_mems h ms o -> reads h toAdd w -> pick_dot h pv ms toAdd lost = EOk r ->
  reads h (fst (fst r)) (dot_value o w).
Proof.
  induction ms as [|[k x] ms IH]; intros o h toAdd lost r w Hms Hr H; inversion Hms; subst; cbn [pick_dot dot_value] in *.
  { injection H as <-. exact Hr. }
  destruct (text_eqb k (L ".")).
  - destruct (jref h x) as [h1|u] eqn:E1; cbn [ebind] in H; [|discriminate]. cbv zeta in H. destruct (jref_reads _ _ _ E1) as (K1 & K2).
    assert (Hs : forall y, cell_of h y = cell_of h1 y) by (intros y; symmetry; eapply jref_cell; exact E1).
    apply (proj1 (reads_same h1 h Hs)). eapply IH; [apply K2; eassumption|apply K1; eassumption|exact H].
  - eapply IH; eauto.
Qed.

(** ** The engine *)
Section EngineS.
Variables (e : env) (cx : ctx) (msg : text).
Definition rel (j : option nat) (s : hst) (S : rst) : Prop :=
  q_pt s = r_pt S /\ q_end s = r_end S /\ q_rule s = r_rule S /\ jrel (q_h s) j (r_js S).
Definition simF (rec : nat -> nat -> bool -> option nat -> hst -> er (bool * hst)) (recE : nat -> nat -> bool -> rst -> er (bool * rst)) : Prop :=
  forall nd offs partial j s S R ok S', exact (q_h s) (opt_list j ++ q_lost s ++ R) -> unref j (q_h s) -> rel j s S ->
  recE nd offs partial S = EOk (ok, S') -> exists s', rec nd offs partial j s = EOk (ok, s') /\ rel j s' S'.
Variable rec : nat -> nat -> bool -> option nat -> hst -> er (bool * hst).
Variable recE : nat -> nat -> bool -> rst -> er (bool * rst).
Hypothesis HR : recF cx rec.
Hypothesis HS : simF rec recE.

Definition arel (h : jheap) (a : option nat) (l : option (list json)) : Prop :=
  match a, l with None, None => True | Some a, Some l => reads h (Some a) (JArr l) | _, _ => False end.
Lemma arel_held h h' R R' b a l : exact h R -> exact h' R' -> calm (List.length h) b h h' -> unref b h' -> arel h a l ->
  (forall i, a = Some i -> In i R' /\ b <> Some i) -> arel h' a l.
Proof. intros HE HE' HC HU Hr Hx. destruct a as [i|], l as [o|]; cbn in *; auto. exact (held_reads h h' R R' b _ _ HE HE' HC HU Hr Hx). Qed.
Lemma arel_reads h a l : arel h a l -> reads h a (match l with Some l => JArr l | None => JNull end).
Proof. destruct a, l; cbn; try tauto. intros _. constructor. Qed.
Lemma none_unref h : unref None h. Proof. intros i Hi; discriminate. Qed.
Lemma alloc_world h R c i h' : exact h R -> jalloc h c = (i, h') -> children c = [] ->
  exact h' (i :: R) /\ i = List.length h /\ ~ In i (refs h') /\ (forall x v, reads h x v -> reads h' x v) /\ cell_of h' i = Some c.
Proof.
  intros HE E Hc. pose proof (jalloc_exact h R c _ _ ltac:(rewrite Hc; exact HE) E) as HE1. injection E as <- <-. split; auto. split; auto. split; [|split].
  - rewrite refs_app. cbn [refs flat_map j_cell]. rewrite Hc, app_nil_r. intros Hi. pose proof (exact_lt h R (List.length h) HE (or_introl Hi)). lia.
  - apply reads_prefix.
  - unfold cell_of. rewrite nth_error_app2, Nat.sub_diag by lia. reflexivity.
Qed.

Lemma repeat_sim : forall f pn wn permit strt lkg arr s S R l o S', unref arr (q_h s) -> exact (q_h s) (opt_list arr ++ q_lost s ++ R) ->
  q_pt s = r_pt S -> q_rule s = r_rule S -> arel (q_h s) arr l ->
  repeat_loop recE f pn wn permit strt lkg l S = EOk (o, S') ->
  exists o' s', repeat_loopH rec f pn wn permit strt lkg arr s = EOk (o', s') /\ q_rule s' = r_rule S' /\
    match o, o' with None, None => True | Some (p, v), Some (p', x) => p = p' /\ reads (q_h s') x v | _, _ => False end.
Proof.
  induction f as [|f IH]; intros pn wn permit strt lkg arr s S R l o S' HU HE Hpt Hrl Ha H; cbn [repeat_loopH repeat_loop] in *; [discriminate|]. cbv zeta in H.
  destruct (jalloc (q_h s) (CObj [])) as [pv h0] eqn:E0. destruct (alloc_world _ _ (CObj []) _ _ HE E0 eq_refl) as (HE0 & Hpv & Hpr0 & K0 & Hc0).
  destruct (recE pn strt true (set_end (set_js S (Some [])) None)) as [[ok S1]|u] eqn:ER; cbn [ebind] in H; [|discriminate].
  assert (Hapv : forall a, arr = Some a -> a < pv) by (intros a ->; rewrite Hpv; eapply exact_lt; [exact HE|right; left; auto]).
  assert (HEr : exact h0 (opt_list (Some pv) ++ q_lost s ++ (opt_list arr ++ R))) by (eapply exact_ext; [exact HE0|]; intros y; cbn [opt_list]; tm; lia).
  destruct (HS pn strt true (Some pv) (q_set_end (q_set_h s h0) None) (set_end (set_js S (Some [])) None) (opt_list arr ++ R) ok S1 HEr) as (s1 & E1 & Hr1).
  { intros i [= <-]. exact Hpr0. }
  { split; [exact Hpt|]. split; [reflexivity|]. split; [exact Hrl|]. cbn [jrel q_set_end q_set_h q_h set_end set_js r_js]. econstructor; [exact Hc0|constructor]. }
  { exact ER. }
  pose proof (HR pn strt true (Some pv) (q_set_end (q_set_h s h0) None) (opt_list arr ++ R) HEr) as HF. rewrite E1 in HF. cbn [fine fst snd q_set_end q_set_h q_h q_lost] in HF.
  destruct HF as ((HE1 & HG1) & _ & _ & _ & _ & HC1). rewrite E1. cbn [ebind]. destruct Hr1 as (P1 & _ & Rl1 & J1). cbn [jrel] in J1.
  assert (HUp1 : unref (Some pv) (q_h s1)).
  { apply (unref_grown [] (Some pv) h0 (q_h s1) HG1); [|intros i [= <-]; exact Hpr0]. intros i [= <-]. split; auto. eapply exact_lt; [exact HE0|]. right; left; auto. }
  assert (Hlt0 : List.length (q_h s) <= List.length h0) by (injection E0 as _ <-; rewrite app_length; lia).
  assert (HU1 : unref arr (q_h s1)).
  { apply (unref_grown [] arr h0 (q_h s1) HG1).
    - intros i ->. split; auto. eapply exact_lt; [exact HE0|]. right. right. left; auto.
    - intros i Hi. injection E0 as _ <-. rewrite refs_app. cbn [refs flat_map j_cell children]. rewrite !app_nil_r. apply HU. exact Hi. }
  assert (Ha0 : arel h0 arr l) by (destruct arr, l; cbn [arel] in *; auto).
  assert (Ha1 : arel (q_h s1) arr l).
  { apply (arel_held h0 (q_h s1) _ _ (Some pv) arr l HEr HE1 HC1 HUp1 Ha0). intros i ->. split; [apply in_or_app; right; apply in_or_app; right; left; reflexivity|].
    intros [= Hq]. specialize (Hapv i eq_refl). lia. }
  destruct ok; cbn [negb] in *.
  2:{ destruct (jput_exact _ _ _ HE1) as (h1 & Ep & HEp). rewrite Ep. cbn [ebind]. destruct permit.
      - injection H as <- <-. exists (Some (lkg, arr)), (q_set_h s1 h1). split; auto. split; [exact Rl1|]. split; auto. apply arel_reads. cbn [q_set_h q_h].
        apply (arel_held (q_h s1) h1 _ _ None arr l HE1 HEp); [eapply calm_jput; exact Ep|apply none_unref|exact Ha1|].
        intros i ->. split; [apply in_or_app; right; left; auto|discriminate].
      - injection H as <- <-. destruct (jput_exact h1 (q_lost s1 ++ R) arr) as (h2 & E2 & HE2); [eapply exact_ext; [exact HEp|]; intros y; tm; lia|].
        rewrite E2. cbn [ebind]. exists None, (q_set_h s1 h2). split; auto. }
  (* matched *)
  destruct (r_js S1) as [obj|] eqn:EJ; [|destruct J1].
  set (l0 := match l with Some l => l | None => [] end) in *.
  destruct (match arr with Some a => (a, q_h s1) | None => jalloc (q_h s1) (CArr []) end) as [ar h1] eqn:Ea.
  assert (HA : exact h1 (pv :: ar :: q_lost s1 ++ R) /\ ~ In ar (refs h1) /\ ~ In pv (refs h1) /\ ar <> pv /\ reads h1 (Some ar) (JArr l0) /\ reads h1 (Some pv) (JObj obj)).
  { destruct arr as [a|].
    - injection Ea as <- <-. split; [eapply exact_ext; [exact HE1|]; intros y; cbn [opt_list app]; tm; lia|]. split; [apply HU1; reflexivity|]. split; [apply HUp1; reflexivity|].
      split; [specialize (Hapv a eq_refl); lia|]. split; [|exact J1]. destruct l; [exact Ha1|destruct Ha1].
    - destruct (alloc_world _ _ (CArr []) _ _ HE1 Ea eq_refl) as (H1 & H2 & H3 & H4 & H5).
      split; [eapply exact_ext; [exact H1|]; intros y; cbn [opt_list app]; tm; lia|]. split; auto. split; [|split; [|split]].
      + injection Ea as _ <-. rewrite refs_app. cbn [refs flat_map j_cell children]. rewrite !app_nil_r. apply HUp1. reflexivity.
      + assert (pv < List.length (q_h s1)) by (eapply exact_lt; [exact HE1|right; left; auto]). lia.
      + destruct l; [destruct Ha1|]. econstructor; [exact H5|constructor].
      + apply H4. exact J1. }
  destruct HA as (HA & Har & Hpr & Hap & Hra & Hrp).
  pose proof (members_reads _ _ _ Hrp) as (ms & Em & Hms & i0 & [= <-] & Hc). rewrite Em. cbn [ebind].
  assert (HA' : exact h1 (hold pv (Some pv) ++ q_lost s1 ++ (pv :: ar :: R))).
  { cbn [hold]. rewrite Nat.eqb_refl. eapply exact_ext; [exact HA|]. intros y. tm. lia. }
  pose proof (pick_exact pv ms (pv :: ar :: R) ms h1 (Some pv) (q_lost s1) HA' Hc (incl_refl _) Hpr (or_introl eq_refl)) as HP.
  assert (HPok : exists r, pick_dot h1 pv ms (Some pv) (q_lost s1) = EOk r).
  { clear - Hms HA Hc. assert (HX : forall ms' h t lost, incl ms' ms -> cell_of h pv = Some (CObj ms) -> (forall x, In x (refs h) -> alive h x) -> exists r, pick_dot h pv ms' t lost = EOk r).
    { induction ms' as [|[k x] ms' IH]; intros h t lost Hin Hc0 HL; cbn [pick_dot]; [eauto|]. destruct (text_eqb k (L ".")); [|apply IH; auto; intros y Hy; apply Hin; right; auto].
      assert (E : exists h', jref h x = EOk h').
      { destruct x as [i|]; cbn [jref]; [|eauto]. destruct (HL i) as (ob & Hn); [eapply kid_refs; [exact Hc0|eapply kid_in, Hin; left; reflexivity]|].
        apply jget_ok in Hn. rewrite Hn. cbn [ebind]. eauto. }
      destruct E as (h' & E). rewrite E. cbn [ebind]. cbv zeta. apply IH.
      - intros y Hy. apply Hin. right; auto.
      - rewrite (jref_cell _ _ _ _ E). exact Hc0.
      - intros y Hy. rewrite (refs_eq h' h) in Hy by (intros z; eapply jref_cell; exact E). apply alive_cell. rewrite (jref_cell _ _ _ _ E). apply alive_cell. auto. }
    apply HX; auto; [apply incl_refl|]. intros x Hx. destruct (held_alive h1 _ x HA (or_introl Hx)) as (o & _ & Hn & _). exists o; exact Hn. }
  destruct HPok as ([[toAdd h2] lost] & EP). rewrite EP in HP |- *. cbn [ebind fine fst snd] in *. destruct HP as (HP & HGp & HT).
  pose proof (pick_reads pv ms obj h1 (Some pv) (q_lost s1) _ (JObj obj) Hms Hrp EP) as Hdv. cbn [fst] in Hdv.
  destruct (pick_cells pv _ _ _ _ _ EP) as (HFp & _). cbn [fst snd] in HFp.
  destruct (reads_same h1 h2 HFp) as (K2 & _).
  set (extra := match toAdd with Some y => if Nat.eqb y pv then [] else [pv] | None => [pv] end).
  assert (HX : forall y, times y (hold pv toAdd) + is1 pv y = times y (opt_list toAdd) + times y extra).
  { intros y. unfold hold, extra. destruct toAdd as [z|]; cbn [opt_list]; [destruct (Nat.eqb_spec z pv) as [->|]|]; tm; lia. }
  assert (HE2 : exact h2 (opt_list toAdd ++ (extra ++ ar :: lost ++ R))) by (eapply exact_ext; [exact HP|]; intros y; specialize (HX y); tm; lia).
  assert (HTa : toAdd <> Some ar) by (intros ->; destruct HT as [HT|(_ & HT)]; [congruence|]; apply Har, HT; left; auto).
  assert (HUa2 : unref (Some ar) h2).
  { apply (unref_grown [] (Some ar) h1 h2 HGp); [|intros i [= <-]; exact Har]. intros i [= <-]. split; auto. eapply exact_lt; [exact HA|]. right; right; left; auto. }
  destruct (push_reads h2 (extra ++ ar :: lost ++ R) ar toAdd l0 (dot_value obj (JObj obj)) HE2) as (h3 & E3 & Hr3); auto.
  { apply in_or_app; right; left; auto. }
  rewrite E3. cbn [ebind].
  pose proof (jpush_exact h2 (extra ++ ar :: lost ++ R) ar toAdd HE2) as HE3. rewrite E3 in HE3. cbn [fine] in HE3. specialize (HE3 ltac:(apply in_or_app; right; left; auto)).
  assert (HUa3 : unref (Some ar) h3).
  { apply (unref_grown (opt_list toAdd) (Some ar) h2 h3 (grown_jpush _ _ _ _ E3)); [|exact HUa2].
    intros i [= <-]. split; [|destruct toAdd as [z|]; cbn; [intros [->|[]]; auto|tauto]]. eapply exact_lt; [exact HE2|]. right. apply in_or_app; right; apply in_or_app; right; left; auto. }
  assert (HE4 : exists h4, match toAdd with Some y => if Nat.eqb y pv then EOk h3 else jput h3 (Some pv) | None => jput h3 (Some pv) end = EOk h4 /\ exact h4 (ar :: lost ++ R) /\ reads h4 (Some ar) (JArr (l0 ++ [dot_value obj (JObj obj)])) /\ grown [] h3 h4).
  { assert (HQ : extra = [pv] -> exists h4, jput h3 (Some pv) = EOk h4 /\ exact h4 (ar :: lost ++ R) /\ reads h4 (Some ar) (JArr (l0 ++ [dot_value obj (JObj obj)])) /\ grown [] h3 h4).
    { intros Hx. rewrite Hx in HE3. destruct (jput_exact h3 (ar :: lost ++ R) (Some pv) HE3) as (h4 & E4 & HE4). exists h4. split; auto. split; auto.
      split; [|eapply grown_jput; exact E4]. apply (put_reads h3 _ (Some pv) h4 _ _ HE3 E4 HE4 Hr3). intros i [= <-]. left; auto. }
    unfold extra in HQ, HE3. destruct toAdd as [z|]; [destruct (Nat.eqb z pv)|]; auto. exists h3. split; auto. split; auto. split; auto. apply grown_refl. }
  destruct HE4 as (h4 & -> & HE4 & Hr4 & HG4). cbn [ebind].
  assert (HUa4 : unref (Some ar) h4).
  { apply (unref_grown [] (Some ar) h3 h4 HG4); [|exact HUa3]. intros i [= <-]. split; auto. eapply exact_lt; [exact HE3|]. right. apply in_or_app; right; left; auto. }
  destruct (recE wn (r_pt S1) true (set_end (set_js (set_pt S1 0) None) None)) as [[ok2 S2]|u] eqn:ER2; cbn [ebind] in H; [|discriminate].
  assert (HEw : exact h4 (opt_list None ++ lost ++ (ar :: R))) by (eapply exact_ext; [exact HE4|]; intros y; cbn [opt_list]; tm; lia).
  destruct (HS wn (r_pt S1) true None (q_set_end (q_set_pt (q_set_lost (q_set_h s1 h4) lost) 0) None) (set_end (set_js (set_pt S1 0) None) None) (ar :: R) ok2 S2 HEw) as (s2 & E5 & Hr5).
  { apply none_unref. }
  { split; [reflexivity|]. split; [reflexivity|]. split; [exact Rl1|exact I]. }
  { exact ER2. }
  pose proof (HR wn (r_pt S1) true None (q_set_end (q_set_pt (q_set_lost (q_set_h s1 h4) lost) 0) None) (ar :: R) HEw) as HF5. rewrite E5 in HF5.
  cbn [fine fst snd q_set_end q_set_pt q_set_lost q_set_h q_h q_lost] in HF5. destruct HF5 as ((HE5 & HG5) & _ & _ & _ & _ & HC5).
  rewrite P1, E5. cbn [ebind]. destruct Hr5 as (P5 & _ & Rl5 & _).
  assert (Hr6 : reads (q_h s2) (Some ar) (JArr (l0 ++ [dot_value obj (JObj obj)]))).
  { apply (held_reads h4 (q_h s2) _ _ None (Some ar) _ HEw HE5 HC5 (none_unref _) Hr4). intros i [= <-]. split; [cbn [opt_list app]; apply in_or_app; right; left; auto|discriminate]. }
  destruct ok2.
  - rewrite P5. apply (IH pn wn permit (r_pt S2) (r_pt S1) (Some ar) s2 S2 R (Some (l0 ++ [dot_value obj (JObj obj)])) o S'); auto.
    + apply (unref_grown [] (Some ar) h4 (q_h s2) HG5); [|exact HUa4]. intros i [= <-]. split; auto. eapply exact_lt; [exact HE4|]. right; left; auto.
    + eapply exact_ext; [exact HE5|]. intros y. cbn [opt_list]. tm. lia.
  - injection H as <- <-. exists (Some (r_pt S1, Some ar)), s2. auto.
Qed.
Lemma try_sim rf p offs s S R js o S' : exact (q_h s) (q_lost s ++ R) -> q_pt s = r_pt S -> q_end s = r_end S -> q_rule s = r_rule S -> r_js S = js ->
  tryParser e cx msg recE rf p offs S = EOk (o, S') ->
  exists o' s', tryParserH e cx msg rec rf p offs s = EOk (o', s') /\ q_pt s' = r_pt S' /\ q_end s' = r_end S' /\ q_rule s' = r_rule S' /\ r_js S' = js /\
    match o, o' with None, None => True | Some (q, v), Some (q', x) => q = q' /\ (p_name p = None \/ reads (q_h s') x v) | _, _ => False end.
Proof.
  intros HE Hpt Hen Hrl Hjs H. unfold tryParserH. unfold tryParser in H. cbv zeta in *. destruct (p_kind p) as [m|pn wn permit|ti].
  - destruct (Nat.ltb _ _); [discriminate|]. destruct (run_motif _ _ _ _ _) as [[n v]|k|u]; [| |discriminate].
    + injection H as <- <-. destruct (p_name p) as [nm|].
      * destruct (jnew v (q_h s)) as [x h1] eqn:E. exists (Some (offs + n, x)), (q_set_h s h1). pose proof (jnew_reads _ _ _ _ E). repeat split; auto.
      * exists (Some (offs + n, None)), (q_set_h s (q_h s)). repeat split; auto.
    + injection H as <- <-. exists None, s. repeat split; auto.
  - destruct (repeat_loop recE rf pn wn permit offs offs None S) as [[o1 S1]|u] eqn:ER; cbn [ebind] in H; [|discriminate]. injection H as <- <-.
    destruct (repeat_sim rf pn wn permit offs offs None s S R None o1 S1) as (o' & s1 & E1 & Rl & Hv); auto; [apply none_unref|exact I|].
    pose proof (repeat_fine cx rec HR rf pn wn permit offs offs None s R (List.length (q_h s)) (none_unref _) HE (le_n _) ltac:(intros a Ha; discriminate)) as HF.
    rewrite E1 in HF |- *. cbn [ebind fine fst snd] in *. destruct HF as (HX & _).
    destruct o1 as [[q v]|], o' as [[q' x]|]; try (destruct Hv; fail).
    + destruct Hv as (<- & Hv). destruct (p_name p) as [nm|].
      * eexists _, _. split; [reflexivity|]. cbn [q_set_end q_set_pt q_pt q_end q_rule set_end set_js set_pt r_pt r_end r_rule r_js q_h]. repeat split; auto.
      * destruct (jput_exact _ _ _ HX) as (h1 & Ep & _). rewrite Ep. cbn [ebind]. eexists _, _. split; [reflexivity|].
        cbn [q_set_end q_set_pt q_set_h q_pt q_end q_rule set_end set_js set_pt r_pt r_end r_rule r_js q_h]. repeat split; auto.
    + eexists _, _. split; [reflexivity|]. cbn [q_set_end q_set_pt q_pt q_end q_rule set_end set_js set_pt r_pt r_end r_rule r_js q_h]. repeat split; auto.
  - destruct (nth_error (c_types cx) ti) as [[? tn]|]; [|discriminate].
    destruct (recE tn offs true (set_end (set_js S (Some [])) None)) as [[ok S1]|u] eqn:ER; cbn [ebind] in H; [|discriminate]. injection H as <- <-.
    destruct (jalloc (q_h s) (CObj [])) as [v h0] eqn:E0. destruct (alloc_world _ _ (CObj []) _ _ HE E0 eq_refl) as (HE0 & Hv & Hur & _ & Hc0).
    destruct (HS tn offs true (Some v) (q_set_end (q_set_h s h0) None) (set_end (set_js S (Some [])) None) R ok S1 HE0) as (s1 & E1 & P1 & _ & Rl1 & J1).
    { intros i [= <-]. exact Hur. }
    { split; [exact Hpt|]. split; [reflexivity|]. split; [exact Hrl|]. cbn [jrel q_set_end q_set_h q_h set_end set_js r_js]. econstructor; [exact Hc0|constructor]. }
    { exact ER. }
    rewrite E1. cbn [ebind]. cbn [jrel] in J1. destruct (r_js S1) as [o1|]; [|destruct J1]. destruct ok.
    + eexists _, _. split; [reflexivity|]. cbn [q_set_end q_set_pt q_pt q_end q_rule set_end set_js set_pt r_pt r_end r_rule r_js q_h]. repeat split; auto.
    + eexists _, _. split; [reflexivity|]. cbn [q_set_end q_set_pt q_set_lost q_pt q_end q_rule set_end set_js set_pt r_pt r_end r_rule r_js q_h]. repeat split; auto.
Qed.
Lemma loop_sim rf nd n : get_node (c_nodes cx) nd = EOk n -> forall ps offs partial lpt j s S R ok S', incl ps (n_parsers n) ->
  exact (q_h s) (opt_list j ++ q_lost s ++ R) -> unref j (q_h s) -> rel j s S ->
  parser_loop e cx msg recE rf nd ps offs partial lpt S = EOk (ok, S') ->
  exists s', parser_loopH e cx msg rec rf nd ps offs partial lpt j s = EOk (ok, s') /\ rel j s' S'.
Proof.
  intros Hn. induction ps as [|p ps IH]; intros offs partial lpt j s S R ok S' Hin HE HU HRl H; cbn [parser_loopH parser_loop] in *.
  { injection H as <- <-. exists s. auto. }
  assert (Hp : In p (n_parsers n)) by (apply Hin; left; auto). assert (Hin' : incl ps (n_parsers n)) by (intros y Hy; apply Hin; right; auto).
  destruct HRl as (Hpt & Hen & Hrl & HJ).
  assert (HE' : exact (q_h s) (q_lost s ++ opt_list j ++ R)) by (eapply exact_ext; [exact HE|]; intros y; tm; lia).
  destruct (tryParser e cx msg recE rf p offs S) as [[o S1]|u] eqn:ET; cbn [ebind] in H; [|discriminate].
  destruct (try_sim rf p offs s S (opt_list j ++ R) (r_js S) o S1) as (o' & s1 & E1 & P1 & N1 & Rl1 & J1 & Hv); auto.
  pose proof (try_fine e cx msg rec HR rf p offs s (opt_list j ++ R) HE' (fun HTd => HTd nd n p Hn Hp)) as HF. rewrite E1 in HF |- *. cbn [ebind fine fst snd] in *.
  destruct HF as (H1 & H2 & H3 & _ & _ & HK1).
  assert (HU1 : unref j (q_h s1)).
  { apply (unref_grown [] j _ _ H2); [|exact HU]. intros i ->. split; auto. eapply exact_lt; [exact HE|]. right; left; auto. }
  assert (HJ1 : jrel (q_h s1) j (r_js S1)).
  { rewrite J1. apply (jrel_held (q_h s) (q_h s1) _ _ None j (r_js S) HE' H1 HK1 (none_unref _) HJ). intros i ->. split; [|discriminate].
    apply in_or_app; right; apply in_or_app; right; apply in_or_app; left; left; auto. }
  destruct o as [[pos w]|], o' as [[pos' v]|]; try (destruct Hv; fail).
  2:{ apply (IH offs partial lpt j (q_set_pt s1 (Nat.max (q_pt s1) lpt)) (set_pt S1 (Nat.max (r_pt S1) lpt)) R ok S' Hin'); auto.
      - cbn [q_set_pt q_h q_lost]. eapply exact_ext; [exact H1|]. intros y. tm. lia.
      - split; [cbn; rewrite P1; reflexivity|]. split; [exact N1|]. split; [exact Rl1|exact HJ1]. }
  destruct Hv as (<- & Hv).
  destruct (recE (p_child p) pos partial S1) as [[ok1 S2]|u] eqn:ER; cbn [ebind] in H; [|discriminate].
  assert (HEr : exact (q_h s1) (opt_list j ++ q_lost s1 ++ (opt_list v ++ R))) by (eapply exact_ext; [exact H1|]; intros y; tm; lia).
  destruct (HS (p_child p) pos partial j s1 S1 _ ok1 S2 HEr HU1) as (s2 & E2 & P2 & N2 & Rl2 & J2); [repeat split; auto|exact ER|].
  pose proof (HR (p_child p) pos partial j s1 _ HEr) as HF2. rewrite E2 in HF2 |- *. cbn [ebind fine fst snd] in *.
  destruct HF2 as ((H4 & H5) & _ & _ & _ & _ & M5).
  assert (HU2 : unref j (q_h s2)).
  { apply (unref_grown [] j _ _ H5); [|exact HU1]. intros i ->. split; auto. eapply exact_lt; [exact HEr|]. right; left; auto. }
  assert (Hjv : j = None \/ j <> v).
  { destruct j as [i|]; [|auto]. right. intros <-. specialize (H3 _ _ eq_refl).
    assert (Hi : i < List.length (q_h s)) by (eapply exact_lt; [exact HE|right; left; auto]). lia. }
  assert (HE2 : exact (q_h s2) (opt_list v ++ (opt_list j ++ q_lost s2 ++ R))) by (eapply exact_ext; [exact H4|]; intros y; tm; lia).
  destruct ok1.
  - assert (Hv2 : p_name p = None \/ reads (q_h s2) v w).
    { destruct Hv as [Hv|Hv]; [auto|right]. apply (held_reads (q_h s1) (q_h s2) _ _ j v w HEr H4 M5 HU2 Hv). intros i ->. split; [|destruct Hjv; congruence].
      apply in_or_app; right; apply in_or_app; right; left; auto. }
    destruct (fixJSON p w (r_js S2)) as [js|u] eqn:EF; cbn [ebind] in H; [|discriminate].
    destruct (fix_reads p v j (q_h s2) _ w (r_js S2) js Hjv HE2) as (h1 & E3 & J3); auto.
    { intros i ->. left; auto. }
    rewrite E3. cbn [ebind]. eexists. injection H as <- <-. split; [reflexivity|].
    destruct (opt_rule (c_opts cx)); (split; [cbn; congruence|split; [exact N2|split; [cbn; congruence|exact J3]]]).
  - destruct (jput_exact (q_h s2) (opt_list j ++ q_lost s2 ++ R) v HE2) as (h1 & E3 & HE3). rewrite E3. cbn [ebind].
    assert (HC3 : calm (List.length (q_h s2)) None (q_h s2) h1) by (eapply calm_jput; exact E3).
    eapply (IH offs partial pos j (q_set_pt (q_set_h s2 h1) (Nat.max (q_pt s2) pos)) _ R ok S' Hin' HE3); [| |exact H].
    + apply (unref_grown [] j _ _ (grown_jput _ _ _ E3)); [|exact HU2]. intros i ->. split; auto. eapply exact_lt; [exact H4|]. right; left; auto.
    + split; [cbn; congruence|]. split; [exact N2|]. split; [exact Rl2|]. cbn.
      apply (jrel_held (q_h s2) h1 _ _ None j (r_js S2) HE2 HE3 HC3 (none_unref _) J2). intros i ->. split; [left; auto|discriminate].
Qed.
Lemma step_sim rf : simF (norm_stepH e cx msg rec rf) (norm_step e cx msg recE rf).
Proof.
  intros nd offs partial j s S R ok S' HE HU HRl H. unfold norm_stepH, nodeH. unfold norm_step in H.
  destruct (get_node (c_nodes cx) nd) as [n|u] eqn:Hn; cbn [ebind] in *; [|discriminate]. cbv zeta in H.
  destruct (parser_loop e cx msg recE rf nd (n_parsers n) offs partial (r_pt S) (set_log S ((nd, true) :: r_log S))) as [[ok1 S1]|u] eqn:EL; cbn [r_pt set_log] in *; rewrite EL in H; cbn [ebind] in H; [|discriminate].
  pose proof HRl as (Hpt & _). rewrite Hpt.
  destruct (loop_sim rf nd n Hn (n_parsers n) offs partial (r_pt S) j s (set_log S ((nd, true) :: r_log S)) R ok1 S1 (incl_refl _) HE HU HRl EL) as (s1 & E1 & P1 & N1 & Rl1 & J1).
  rewrite E1. cbn [ebind]. destruct (_ && _)%bool; injection H as <- <-; eexists; (split; [reflexivity|]); repeat split; auto.
Qed.
End EngineS.
Lemma recH_sim e cx msg : forall fuel, simF (normalizeRecH e cx msg fuel) (normalizeRec e cx msg fuel).
Proof.
  induction fuel as [|f IH]; intros nd offs partial j s S R ok S' HE HU HRl H; cbn [normalizeRecH normalizeRec] in *; [discriminate|].
  eapply (step_sim e cx msg _ _ (recH_fine e cx msg f) IH f); eauto.
Qed.

(** ** The rest of ln_normalize *)
(** Exact, and objects [i] that nothing in the heap refers to stand for the values given. *)
Definition world (h : jheap) (R : list nat) (Ls : list (nat * json)) : Prop :=
  exact h R /\ forall i w, In (i, w) Ls -> In i R /\ ~ In i (refs h) /\ reads h (Some i) w.
Lemma world_alloc h R Ls c i h' w : world h R Ls -> jalloc h c = (i, h') -> children c = [] -> (forall hh, cell_of hh i = Some c -> reads hh (Some i) w) ->
  world h' (i :: R) ((i, w) :: Ls) /\ i = List.length h.
Proof.
  intros (HE & HL) E Hc Hw. destruct (alloc_world h R c i h' HE E Hc) as (H1 & H2 & H3 & H4 & H5). split; auto. split; auto.
  intros k v [[= <- <-]|Hi]; [split; [left; auto|split; auto]|]. destruct (HL k v Hi) as (G1 & G2 & G3). split; [right; auto|]. split; [|auto].
  injection E as _ <-. rewrite refs_app. cbn [refs flat_map j_cell]. rewrite Hc, app_nil_r. exact G2.
Qed.
Lemma world_add h R Ls j k v o w : exact h (opt_list v ++ R) -> In j R -> ~ In j (refs h) -> v <> Some j -> reads h (Some j) (JObj o) -> reads h v w ->
  (forall i u, In (i, u) Ls -> In i R /\ ~ In i (refs h) /\ i <> j /\ v <> Some i /\ reads h (Some i) u) ->
  exists h', jadd h (Some j) k v = EOk h' /\ world h' R ((j, JObj (obj_add o k w)) :: Ls).
Proof.
  intros HE Hj HU Hv Hr Hw HL. assert (HUj : unref (Some j) h) by (intros i [= <-]; exact HU).
  destruct (add_reads h R j k v o w HE Hj HUj Hv Hr Hw) as (h' & E & HE' & HU' & Hr'). exists h'. split; auto. split; auto.
  intros i u [[= <- <-]|Hi]; [split; [auto|split; [apply HU'; reflexivity|auto]]|]. destruct (HL i u Hi) as (G1 & G2 & G3 & G4 & G5). split; auto. split.
  - apply (unref_grown (opt_list v) (Some i) h h' (grown_jadd _ _ _ _ _ E)); [|intros q [= <-]; exact G2|reflexivity].
    intros q [= <-]. split; [eapply exact_lt; [exact HE|right; apply in_or_app; right; exact G1]|]. destruct v as [y|]; cbn; [intros [<-|[]]; congruence|tauto].
  - apply (held_reads h h' _ R (Some j) (Some i) u HE HE'); auto; [eapply calm_jadd; eauto|]. intros q [= <-]. split; auto. congruence.
Qed.
Lemma world_leaf h R Ls j k o s : world h R ((j, JObj o) :: Ls) -> (forall i u, In (i, u) Ls -> i <> j) -> match s with JNull | JArr _ | JObj _ => False | _ => True end ->
  exists h', add_leaf h j k s = EOk h' /\ world h' R ((j, JObj (obj_add o k s)) :: Ls).
Proof.
  intros HW Hne Hs. unfold add_leaf. destruct (jalloc h (CLeaf s)) as [x h1] eqn:E. destruct HW as (HE & HL).
  destruct (world_alloc h R ((j, JObj o) :: Ls) (CLeaf s) x h1 s (conj HE HL) E eq_refl) as ((HE1 & HL1) & Hx); [intros hh Hc; constructor; auto|].
  assert (Hlt : forall i u, In (i, u) ((j, JObj o) :: Ls) -> i <> x).
  { intros i u Hi ->. destruct (HL x u Hi) as (G & _). pose proof (exact_lt h R x HE (or_intror G)). lia. }
  destruct (HL j (JObj o) (or_introl eq_refl)) as (J1 & _). destruct (HL1 j (JObj o) (or_intror (or_introl eq_refl))) as (_ & J2 & J3).
  apply (world_add h1 R Ls j k (Some x) o s); auto.
  - intros [= ->]. eapply Hlt; [left; reflexivity|reflexivity].
  - apply HL1. left; auto.
  - intros i u Hi. destruct (HL i u (or_intror Hi)) as (G1 & _). destruct (HL1 i u (or_intror (or_intror Hi))) as (_ & G2 & G3). split; auto. split; auto. split; [eapply Hne; eauto|].
    split; auto. intros [= ->]. eapply Hlt; [right; exact Hi|reflexivity].
Qed.
Lemma world_ops ev : forall ops h R o o', world h R [(ev, JObj o)] -> annot_ops ops o = EOk o' -> exists h', annot_opsH ops ev h = EOk h' /\ world h' R [(ev, JObj o')].
Proof.
  induction ops as [|op ops IH]; intros h R o o' HW H; cbn [annot_ops annot_opsH] in *; [injection H as <-; eauto|].
  destruct op as [[n|] [v|]|n]; cbn [annot_op ebind] in H; try discriminate; [|eauto].
  destruct (world_leaf h R [] ev (cstr n) o (JStr (cstr v)) HW) as (h1 & E & HW1); [intros i u []|exact I|]. rewrite E. cbn [ebind]. eauto.
Qed.
Lemma world_annotate ev as_ tags h R o o' : world h R [(ev, JObj o)] -> annotate as_ tags o = EOk o' -> exists h', annotateH as_ tags ev h = EOk h' /\ world h' R [(ev, JObj o')].
Proof.
  unfold annotate, annotateH. destruct as_ as [|a as_]; [intros HW [= <-]; eauto|]. generalize (rev (tag_texts tags)) as ts. intros ts. revert h o.
  induction ts as [|t ts IH]; intros h o HW H; cbn [annotate_tags annotate_tagsH] in *; [injection H as <-; eauto|].
  unfold annotateEventWithTag in H. destruct (findAnnot (a :: as_) t) as [ops|]; [|cbn [ebind] in *; eauto].
  destruct (annot_ops ops o) as [o1|u] eqn:EO; cbn [ebind] in H; [|discriminate]. destruct (world_ops ev ops h R o o1 HW EO) as (h1 & -> & HW1). cbn [ebind]. eauto.
Qed.
Lemma world_incl h R Ls Ls' : world h R Ls -> incl Ls' Ls -> world h R Ls'.
Proof. intros (HE & HL) Hi. split; auto. Qed.
Lemma world_ext h R R' Ls : world h R Ls -> (forall x, times x R = times x R') -> world h R' Ls.
Proof.
  intros (HE & HL) Ht. split; [eapply exact_ext; eauto|]. intros i w Hi. destruct (HL i w Hi) as (G1 & G2). split; auto. apply times_in. rewrite <- Ht. apply times_in. exact G1.
Qed.
Lemma world_metadata cx n rule ev h R o o' : world h R [(ev, JObj o)] -> add_metadata cx n rule o = EOk o' ->
  exists h', add_metadataH cx n rule ev h = EOk h' /\ world h' R [(ev, JObj o')].
Proof.
  intros HW H. unfold add_metadata in H. unfold add_metadataH.
  match type of H with ebind ?A _ = _ => destruct A as [m1|u] eqn:EA; cbn [ebind] in H; [|discriminate] end.
  match type of H with ebind ?A _ = _ => destruct A as [m2|u] eqn:EB; cbn [ebind] in H; [|discriminate] end.
  assert (HA : exists mr h1, (if opt_rule (c_opts cx) then
              match filter (fun c => negb (ceq c NUL)) rule with
              | [] => EUb OobWrite
              | r => let (mr, h1) := jalloc h (CObj []) in do* h2 := add_leaf h1 mr (L "mockup") (JStr (rev r)) in EOk (Some mr, h2)
              end else EOk (None, h)) = EOk (mr, h1) /\
     match mr with None => m1 = [] /\ h1 = h | Some x => x <> ev /\ world h1 (x :: R) [(x, JObj m1); (ev, JObj o)] /\ exists s, m1 = [(L "mockup", s)] end).
  { destruct (opt_rule (c_opts cx)); [|injection EA as <-; exists None, h; auto].
    destruct (filter _ rule) as [|c r]; [discriminate|]. injection EA as <-. destruct (jalloc h (CObj [])) as [mr h1] eqn:E.
    destruct (world_alloc h R _ (CObj []) mr h1 (JObj []) HW E eq_refl) as (HW1 & Hmr); [intros hh Hc; econstructor; [exact Hc|constructor]|].
    assert (Hne : mr <> ev) by (intros ->; destruct HW as (HE & HL); destruct (HL ev _ (or_introl eq_refl)) as (G & _); pose proof (exact_lt h R ev HE (or_intror G)); lia).
    destruct (world_leaf h1 (mr :: R) [(ev, JObj o)] mr (L "mockup") [] (JStr (rev (c :: r))) HW1) as (h2 & E2 & HW2); [intros i u [[= <- <-]|[]]; congruence|exact I|].
    rewrite E2. cbn [ebind]. exists (Some mr), h2. split; auto. split; auto. split; [exact HW2|]. eexists; reflexivity. }
  destruct HA as (mr & h1 & EH & HM). rewrite EH. clear EH. cbn [ebind].
  assert (HB : exists mr' h2, (if opt_loc (c_opts cx) then
              match n_file n with
              | None => EUb NullDeref
              | Some f =>
                  let (mr, h1) := match mr with Some x => (x, h1) | None => jalloc h1 (CObj []) end in
                  let (lo, h2) := jalloc h1 (CObj []) in
                  do* h3 := add_leaf h2 lo (L "file") (JStr (cstr f)) in
                  do* h4 := add_leaf h3 lo (L "line") (JInt (wrap 32 (Z.of_N (n_line n)))) in
                  do* h5 := jadd h4 (Some mr) (L "location") (Some lo) in
                  EOk (Some mr, h5)
              end else EOk (mr, h1)) = EOk (mr', h2) /\
     match mr' with None => m1 ++ m2 = [] /\ h2 = h | Some x => x <> ev /\ world h2 (x :: R) [(x, JObj (m1 ++ m2)); (ev, JObj o)] /\ m1 ++ m2 <> [] end).
  { destruct (opt_loc (c_opts cx)).
    2:{ injection EB as <-. rewrite app_nil_r. exists mr, h1. split; auto. destruct mr as [x|]; [|exact HM]. destruct HM as (HM1 & HM2 & s & ->). split; auto. split; auto. discriminate. }
    destruct (n_file n) as [f|]; [|discriminate]. injection EB as <-.
    destruct (match mr with Some x => (x, h1) | None => jalloc h1 (CObj []) end) as [m hm] eqn:Em.
    assert (HM' : m <> ev /\ world hm (m :: R) [(m, JObj m1); (ev, JObj o)] /\ (m1 = [] \/ exists s, m1 = [(L "mockup", s)])).
    { destruct mr as [x|]; [injection Em as <- <-; destruct HM as (HM1 & HM2 & HM3); auto|]. destruct HM as (-> & ->).
      destruct (world_alloc h R _ (CObj []) m hm (JObj []) HW Em eq_refl) as (HW1 & Hmr); [intros hh Hc; econstructor; [exact Hc|constructor]|].
      split; [intros ->; destruct HW as (HE & HL); destruct (HL ev _ (or_introl eq_refl)) as (G & _); pose proof (exact_lt h R ev HE (or_intror G)); lia|]. auto. }
    destruct HM' as (Hne & HWm & Hm1). destruct (jalloc hm (CObj [])) as [lo h3] eqn:E3.
    destruct (world_alloc hm _ _ (CObj []) lo h3 (JObj []) HWm E3 eq_refl) as (HW3 & Hlo); [intros hh Hc; econstructor; [exact Hc|constructor]|].
    assert (Hl : forall i u, In (i, u) [(m, JObj m1); (ev, JObj o)] -> i <> lo).
    { intros i u Hi ->. destruct HWm as (HE & HL). destruct (HL lo u Hi) as (G & _). pose proof (exact_lt hm _ lo HE (or_intror G)). lia. }
    destruct (world_leaf h3 _ _ lo (L "file") [] (JStr (cstr f)) HW3 Hl I) as (h4 & E4 & HW4). rewrite E4. cbn [ebind].
    destruct (world_leaf h4 _ _ lo (L "line") _ (JInt (wrap 32 (Z.of_N (n_line n)))) HW4 Hl I) as (h5 & E5 & HW5). rewrite E5. cbn [ebind].
    assert (Hml : m <> lo) by (eapply Hl; left; reflexivity). assert (Hel : ev <> lo) by (eapply Hl; right; left; reflexivity).
    destruct HW5 as (HE5 & HL5). destruct (HL5 lo _ (or_introl eq_refl)) as (_ & _ & Hrl). destruct (HL5 m _ (or_intror (or_introl eq_refl))) as (_ & Hum & Hrm).
    destruct (HL5 ev _ (or_intror (or_intror (or_introl eq_refl)))) as (Hie & Hue & Hre).
    destruct (world_add h5 (m :: R) [(ev, JObj o)] m (L "location") (Some lo) m1 _ HE5 (or_introl eq_refl) Hum ltac:(congruence) Hrm Hrl) as (h6 & E6 & HW6).
    { intros i u [[= <- <-]|[]]. split; [destruct Hie as [Hie|Hie]; [congruence|exact Hie]|]. split; auto. split; auto. split; [congruence|auto]. }
    rewrite E6. cbn [ebind]. exists (Some m), h6. split; auto. split; auto.
    destruct Hm1 as [->|(s & ->)]; (split; [exact HW6|discriminate]). }
  destruct HB as (mr' & h2 & EH & HM'). rewrite EH. clear EH. cbn [ebind]. destruct mr' as [m|].
  2:{ destruct HM' as (Hnil & ->). rewrite Hnil in H. injection H as <-. eauto. }
  destruct HM' as (Hne & HW2 & Hnn). destruct (m1 ++ m2) as [|a mm] eqn:Emm; [congruence|]. injection H as <-.
  destruct (jalloc h2 (CObj [])) as [me h3] eqn:E3.
  destruct (world_alloc h2 _ _ (CObj []) me h3 (JObj []) HW2 E3 eq_refl) as (HW3 & Hme); [intros hh Hc; econstructor; [exact Hc|constructor]|].
  assert (Hl : forall i u, In (i, u) [(m, JObj (a :: mm)); (ev, JObj o)] -> i <> me).
  { intros i u Hi ->. destruct HW2 as (HE & HL). destruct (HL me u Hi) as (G & _). pose proof (exact_lt h2 _ me HE (or_intror G)). lia. }
  assert (Hml : m <> me) by (eapply Hl; left; reflexivity). assert (Hel : ev <> me) by (eapply Hl; right; left; reflexivity).
  destruct HW3 as (HE3 & HL3). destruct (HL3 me _ (or_introl eq_refl)) as (_ & Hu3 & Hr3). destruct (HL3 m _ (or_intror (or_introl eq_refl))) as (_ & Hum & Hrm).
  destruct (HL3 ev _ (or_intror (or_intror (or_introl eq_refl)))) as (Hie & Hue & Hre).
  destruct HW as (_ & HLw). destruct (HLw ev _ (or_introl eq_refl)) as (HevR & _).
  assert (HE3' : exact h3 (opt_list (Some m) ++ me :: R)) by (eapply exact_ext; [exact HE3|]; intros y; cbn [opt_list]; tm; lia).
  destruct (world_add h3 (me :: R) [(ev, JObj o)] me (L "rule") (Some m) [] _ HE3' (or_introl eq_refl) Hu3 ltac:(congruence) Hr3 Hrm) as (h4 & E4 & HW4).
  { intros i u [[= <- <-]|[]]. split; [right; exact HevR|]. split; auto. split; auto. split; [congruence|auto]. }
  rewrite E4. cbn [ebind]. destruct HW4 as (HE4 & HL4). destruct (HL4 me _ (or_introl eq_refl)) as (_ & _ & Hr4). destruct (HL4 ev _ (or_intror (or_introl eq_refl))) as (_ & Hue4 & Hre4).
  apply (world_add h4 R [] ev (L "metadata") (Some me) o _ HE4 HevR Hue4 ltac:(congruence) Hre4 Hr4). intros i u [].
Qed.
Lemma normalizeH_same e cx msg fuel tg ev h R js0 ok o cx' : exact h (ev :: R) -> ~ In ev (refs h) -> (forall n t, tg n = Some t -> In t R /\ t <> ev) ->
  (forall i n t, get_node (c_nodes cx) i = EOk n -> n_tags n = Some t -> reads h (tg i) t) ->
  reads h (Some ev) (JObj js0) -> normalize fuel e cx msg js0 = EOk (ok, o, cx') ->
  exists h' lost, normalizeH e cx msg fuel tg ev h = EOk (ok, h', lost) /\ reads h' (Some ev) (JObj o).
Proof.
  intros HE HU HT HG Hr H. unfold normalize in H. unfold normalizeH.
  match type of H with ebind ?A _ = _ => destruct A as [[ok1 S]|u] eqn:EN; cbn [ebind] in H; [|discriminate] end. cbv zeta in H.
  set (s0 := {| q_pt := 0; q_end := None; q_rule := []; q_h := h; q_lost := [] |}) in *.
  assert (HE0 : exact (q_h s0) (opt_list (Some ev) ++ q_lost s0 ++ R)) by exact HE.
  assert (HU0 : unref (Some ev) h) by (intros i [= <-]; exact HU).
  destruct (recH_sim e cx msg fuel (c_root cx) 0 false (Some ev) s0 {| r_pt := 0; r_js := Some js0; r_end := None; r_rule := []; r_log := [] |} R ok1 S HE0 HU0) as (s & E1 & P & N & Rl & J); [|exact EN|].
  { split; [reflexivity|]. split; [reflexivity|]. split; [reflexivity|exact Hr]. }
  pose proof (recH_fine e cx msg fuel (c_root cx) 0 false (Some ev) s0 R HE0) as HF. rewrite E1 in HF |- *. cbn [ebind fine fst snd] in *.
  destruct HF as ((HE1 & HG1) & _ & _ & _ & _ & HC1). cbn [opt_list app] in HE1. cbn [jrel] in J. destruct (r_js S) as [o1|]; [|destruct J].
  assert (HU1 : unref (Some ev) (q_h s)).
  { apply (unref_grown [] (Some ev) h (q_h s) HG1); auto. intros i [= <-]. split; auto. eapply exact_lt; [exact HE|]. right; left; auto. }
  assert (HW1 : world (q_h s) (ev :: q_lost s ++ R) [(ev, JObj o1)]).
  { split; auto. intros i w [[= <- <-]|[]]. split; [left; auto|]. split; auto. }
  destruct ok1.
  2:{ rewrite P. destruct (Nat.ltb _ _); [discriminate|]. injection H as <- <- <-.
      destruct (world_leaf _ _ [] ev (L "originalmsg") o1 (JStr msg) HW1) as (h1 & E2 & HW2); [intros i u []|exact I|]. rewrite E2. cbn [ebind].
      destruct (world_leaf _ _ [] ev (L "unparsed-data") _ (JStr (cstr (skipn (r_pt S) msg))) HW2) as (h2 & E3 & HW3); [intros i u []|exact I|]. rewrite E3. cbn [ebind].
      exists h2, (q_lost s). split; auto. apply HW3. left; auto. }
  rewrite N. destruct (r_end S) as [en|]; [|discriminate]. unfold nodeH. destruct (get_node (c_nodes cx) en) as [n|u] eqn:Hn; [|discriminate]. cbn [ebind] in *.
  match type of H with ebind ?A _ = _ => destruct A as [o2|u] eqn:EO; cbn [ebind] in H; [|discriminate] end.
  match type of H with ebind ?A _ = _ => destruct A as [o3|u] eqn:EM; cbn [ebind] in H; [|discriminate] end. injection H as <- <- <-.
  match goal with |- exists h' lost, ebind ?A _ = _ /\ _ => assert (HA : exists h1, A = EOk h1 /\ world h1 (ev :: q_lost s ++ R) [(ev, JObj o2)]) end.
  { destruct (n_tags n) as [tags|] eqn:Et; [|injection EO as <-; eauto].
    assert (Htg : reads (q_h s) (tg en) tags).
    { apply (held_reads h (q_h s) _ _ (Some ev) (tg en) tags HE HE1 HC1 HU1 (HG en n tags Hn Et)). intros i Hi. destruct (HT en i Hi) as (G1 & G2). split; [right; apply in_or_app; right; exact G1|congruence]. }
    destruct (jref_exact (q_h s) _ (tg en) HE1) as (h1 & E2 & HE2); [intros i Hi; right; right; apply in_or_app; right; eapply HT; exact Hi|]. rewrite E2. cbn [ebind].
    destruct (jref_reads _ _ _ E2) as (K & _).
    assert (Hs : refs h1 = refs (q_h s)) by (apply refs_eq; intros y; eapply jref_cell; exact E2).
    destruct (world_add h1 (ev :: q_lost s ++ R) [] ev (L "event.tags") (tg en) o1 tags HE2 (or_introl eq_refl)) as (h2 & E3 & HW3).
    - rewrite Hs. apply HU1. reflexivity.
    - intros Hq. destruct (HT en ev Hq) as (_ & G). congruence.
    - apply K. exact J.
    - apply K. exact Htg.
    - intros i u [].
    - rewrite E3. cbn [ebind]. eapply world_annotate; eauto. }
  destruct HA as (h1 & EH & HW2). rewrite EH. clear EH. cbn [ebind].
  match goal with |- exists h' lost, ebind ?A _ = _ /\ _ => assert (HA : exists h1, A = EOk h1 /\ world h1 (ev :: q_lost s ++ R) [(ev, JObj (if opt_orig (c_opts cx) then obj_add o2 (L "originalmsg") (JStr msg) else o2))]) end.
  { destruct (opt_orig (c_opts cx)); [|eauto]. apply (world_leaf _ _ [] ev); [exact HW2|intros i u []|exact I]. }
  destruct HA as (h2 & EH & HW3). rewrite EH. clear EH. cbn [ebind]. rewrite Rl.
  destruct (world_metadata cx n (r_rule S) ev h2 _ _ o3 HW3 EM) as (h3 & E4 & HW4). rewrite E4. cbn [ebind].
  exists h3, (q_lost s). split; auto. apply HW4. left; auto.
Qed.

(** ** Sessions *)
Lemma reads_fun h : (forall x v, reads h x v -> forall v', reads h x v' -> v = v') /\
  (forall xs l, reads_list h xs l -> forall l', reads_list h xs l' -> l = l') /\ (forall ms o, reads_mems h ms o -> forall o', reads_mems h ms o' -> o = o').
Proof.
  apply (reads_mut h (fun x v _ => forall v', reads h x v' -> v = v') (fun xs l _ => forall l', reads_list h xs l' -> l = l') (fun ms o _ => forall o', reads_mems h ms o' -> o = o')).
  - intros v' H. inversion H; reflexivity.
  - intros i v Hc Hv v' H. inversion H; subst; congruence.
  - intros i xs l Hc _ IH v' H. inversion H as [|? ? Hc1|? ? l1 Hc1 Hl1|? ? ? Hc1]; subst; rewrite Hc in Hc1; try discriminate. injection Hc1 as <-. f_equal. auto.
  - intros i ms o Hc _ IH v' H. inversion H as [|? ? Hc1|? ? ? Hc1|? ? l1 Hc1 Hl1]; subst; rewrite Hc in Hc1; try discriminate. injection Hc1 as <-. f_equal. auto.
  - intros l' H. inversion H; reflexivity.
  - intros x xs v l _ IH1 _ IH2 l' H. inversion H; subst. f_equal; auto.
  - intros o' H. inversion H; reflexivity.
  - intros k x ms v o _ IH1 _ IH2 l' H. inversion H; subst. f_equal; auto. f_equal; auto.
Qed.
Lemma normalizeH_others e cx msg fuel tg ev h R ok h' lost : exact h (ev :: R) -> acyclic h -> ~ In ev (refs h) -> (forall n t, tg n = Some t -> In t R /\ t <> ev) ->
  normalizeH e cx msg fuel tg ev h = EOk (ok, h', lost) ->
  exact h' (ev :: lost ++ R) /\ acyclic h' /\ ~ In ev (refs h') /\ forall i w, In i R -> i <> ev -> reads h (Some i) w -> reads h' (Some i) w.
Proof.
  intros HE HA HU HT H. pose proof (normalizeH_inv e cx msg fuel tg ev h R HE HA HU HT) as HF. rewrite H in HF. cbn [fine fst snd] in HF. destruct HF as (HI & _).
  pose proof (i_exact _ _ _ _ _ _ HI) as HE'. destruct (i_unref _ _ _ _ _ _ HI ev (or_introl eq_refl)) as (_ & HU').
  split; auto. split; [exact (i_acyc _ _ _ _ _ _ HI)|]. split; auto. intros i w Hi Hne Hr.
  apply (reads_step h h' (Some ev)); auto.
  - split; [eauto|]. split; [eauto|]. split; [|intros q [= <-]; exact HU']. intros y c Hy Hn Hc. apply (i_surv _ _ _ _ _ _ HI); auto; congruence.
  - intros q [= <-]. split; [|congruence]. eapply held_live; [exact HE'|]. right. apply in_or_app; right; auto.
Qed.
Lemma tags_heap_reads : forall ns h R, exact h R -> let (xs, h') := tags_heap ns h in
  (exists t, h' = h ++ t) /\ forall i n t, nth_error ns i = Some (Some n) -> n_tags n = Some t -> reads h' (tags_at xs i) t.
Proof.
  induction ns as [|n ns IH]; intros h R HE; cbn [tags_heap].
  { split; [exists []; rewrite app_nil_r; reflexivity|]. intros [|i] n t H; discriminate. }
  destruct (match n with Some n => match n_tags n with Some t => jnew t h | None => (None, h) end | None => (None, h) end) as [x h1] eqn:E1.
  assert (H1 : exact h1 (opt_list x ++ R) /\ (exists t, h1 = h ++ t) /\ forall m t, n = Some m -> n_tags m = Some t -> reads h1 x t).
  { destruct n as [n|]; [destruct (n_tags n) as [t|] eqn:Et|].
    - split; [eapply jnew_exact; eauto|]. split; [eapply jnew_prefix; eauto|]. intros m t' [= <-] Ht. rewrite Et in Ht. injection Ht as <-. eapply jnew_reads; eauto.
    - injection E1 as <- <-. split; auto. split; [exists []; rewrite app_nil_r; reflexivity|]. intros m t' [= <-] Ht. congruence.
    - injection E1 as <- <-. split; auto. split; [exists []; rewrite app_nil_r; reflexivity|]. discriminate. }
  destruct H1 as (HE1 & (t1 & ->) & Hr1). specialize (IH _ _ HE1). destruct (tags_heap ns (h ++ t1)) as [xs h2]. destruct IH as ((t2 & ->) & IH).
  split; [exists (t1 ++ t2); rewrite app_assoc; reflexivity|]. intros [|i] m t Hn Ht.
  - injection Hn as ->. unfold tags_at. cbn [nth_error]. apply reads_prefix. eapply Hr1; eauto.
  - unfold tags_at. cbn [nth_error]. exact (IH i m t Hn Ht).
Qed.
Lemma session_ok e cx fuel tg R : (forall n t, tg n = Some t -> In t R) ->
  forall msgs outs h lost0, exact h (lost0 ++ R) -> acyclic h ->
  (forall i n t, get_node (c_nodes cx) i = EOk n -> n_tags n = Some t -> reads h (tg i) t) ->
  Forall2 (fun m a => exists cx', normalize fuel e cx m [] = EOk (fst a, snd a, cx')) msgs outs ->
  exists lost h', session e cx fuel tg h msgs outs h' /\ exact h' (lost ++ R) /\ acyclic h' /\
    forall i n t, get_node (c_nodes cx) i = EOk n -> n_tags n = Some t -> reads h' (tg i) t.
Proof.
  intros HT. induction msgs as [|m msgs IH]; intros outs h lost0 HE HA HG HF; inversion HF as [|? [ok o] ? outs' Hn HF']; subst.
  { exists lost0, h. split; [constructor|auto]. }
  destruct Hn as (cx' & Hn). cbn [fst snd] in Hn. destruct (jalloc h (CObj [])) as [ev h1] eqn:E.
  destruct (alloc_world h _ (CObj []) ev h1 HE E eq_refl) as (HE1 & Hev & HU1 & K & Hc1).
  assert (HA1 : acyclic h1) by (apply (calm_jalloc h _ (CObj []) _ _ None HE (fun y Hy => match Hy with end) E); [exact HA|intros i Hi; discriminate]).
  assert (HT1 : forall n t, tg n = Some t -> In t (lost0 ++ R) /\ t <> ev).
  { intros n t Ht. assert (Hi : In t (lost0 ++ R)) by (apply in_or_app; right; eauto). split; auto. intros ->. pose proof (exact_lt h _ ev HE (or_intror Hi)). lia. }
  destruct (normalizeH_same e cx m fuel tg ev h1 (lost0 ++ R) [] ok o cx' HE1 HU1 HT1) as (h2 & lost & E2 & Hr2); [intros; apply K; eauto|econstructor; [exact Hc1|constructor]|exact Hn|].
  destruct (normalizeH_others e cx m fuel tg ev h1 (lost0 ++ R) ok h2 lost HE1 HA1 HU1 HT1 E2) as (HE2 & HA2 & _ & HO).
  destruct (jput_exact h2 (lost ++ lost0 ++ R) (Some ev) HE2) as (h3 & E3 & HE3).
  assert (HA3 : acyclic h3) by (apply (proj2 (calm_jput 0 None _ _ _ E3)); [exact HA2|intros i Hi; discriminate]).
  destruct (IH outs' h3 (lost ++ lost0)) as (lost' & h4 & HS & HE4 & HA4 & HG4); auto.
  - eapply exact_ext; [exact HE3|]. intros y. tm. lia.
  - intros i n t Hi Ht. specialize (HG i n t Hi Ht). destruct (tg i) as [q|] eqn:Eq; [|inversion HG; constructor].
    destruct (HT1 i q Eq) as (Q1 & Q2). apply (put_reads h2 (lost ++ lost0 ++ R) (Some ev) h3 _ _ HE2 E3 HE3); [apply HO; auto|].
    intros q' [= <-]. apply in_or_app; right; auto.
  - exists lost', h4. split; auto. eapply session_call; eauto.
Qed.
Lemma session_fun e cx fuel tg : forall h ms outs h', session e cx fuel tg h ms outs h' -> forall outs2 h2, session e cx fuel tg h ms outs2 h2 -> outs2 = outs /\ h2 = h'.
Proof.
  intros h ms outs h' H. induction H as [h|h m ms ev h1 ok h2 lost o h3 outs h4 E1 E2 Hr E3 _ IH]; intros outs2 hx H2; inversion H2 as [|? ? ? ev' h1' ok' h2' lost' o' h3' outs' h4' G1 G2 Gr G3 GS]; subst; auto.
  rewrite E1 in G1. injection G1 as <- <-. rewrite E2 in G2. injection G2 as <- <- <-. rewrite E3 in G3. injection G3 as <-.
  destruct (IH _ _ GS) as (-> & ->). pose proof (proj1 (reads_fun h2) _ _ Hr _ Gr) as Hq. injection Hq as <-. auto.
Qed.
