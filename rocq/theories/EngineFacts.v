(** * EngineFacts: the normalizer against EngineSpec.v. *)
From Verif Require Import Base Time Parsers Engine EngineSpec BaseFacts.
From Coq Require Import ZifyBool ZifyNat ZifyN.

Lemma text_eqb_dec k k' : text_eqb k k' = if list_eq_dec ascii_dec k k' then true else false.
Proof. destruct (list_eq_dec ascii_dec k k') as [->|H]; [apply text_eqb_refl|apply text_eqb_false; auto]. Qed.

Lemma obj_add_set o k v : obj_add o k v = set_member o k v.
Proof.
  induction o as [|[k' v'] o IH]; cbn; auto. rewrite text_eqb_dec.
  destruct (list_eq_dec ascii_dec k k'); auto. rewrite IH. reflexivity.
Qed.
Lemma fold_obj_add l : forall o, fold_left (fun o kv => obj_add o (fst kv) (snd kv)) l o = set_members o l.
Proof. unfold set_members. induction l as [|[k v] l IH]; intros o; cbn; auto. rewrite obj_add_set. apply IH. Qed.

Lemma fixJSON_store p v o : fixJSON p v (Some o) = EOk (Some (store (p_name p) v o)).
Proof.
  unfold fixJSON, store. destruct (p_name p) as [nm|]; auto. rewrite text_eqb_dec.
  destruct (list_eq_dec ascii_dec nm (L ".")) as [->|Hn].
  - destruct v as [| | | | |l|[|kv l]]; auto. rewrite fold_obj_add. reflexivity.
  - destruct v as [| | | | |l|[|[k x] [|kv l]]]; auto. rewrite text_eqb_dec.
    destruct (list_eq_dec ascii_dec k (L "..")); reflexivity.
Qed.

Section Facts.
Variable e : env.
Variable cx : ctx.
Variable msg : text.
Notation walk := (walk e cx msg).
Notation reaches := (reaches e cx msg).
Notation accepts := (accepts e msg).
Notation node_at := (node_at cx).

Lemma get_node_at nd n : get_node (c_nodes cx) nd = EOk n <-> node_at nd n.
Proof.
  unfold get_node, EngineSpec.node_at. destruct (nth_error (c_nodes cx) nd) as [[m|]|]; split; intros; congruence.
Qed.
Lemma node_at_fun nd n n' : node_at nd n -> node_at nd n' -> n = n'.
Proof. unfold EngineSpec.node_at. congruence. Qed.
Lemma accepts_fun p from to v to' v' : accepts p from to v -> accepts p from to' v' -> to = to' /\ v = v'.
Proof.
  intros (m & n & Hk & _ & -> & H) (m' & n' & Hk' & _ & -> & H').
  rewrite Hk in Hk'. injection Hk' as <-. rewrite H in H'. injection H' as <- <-. auto.
Qed.

Lemma plain_child nd n p : plain cx nd -> node_at nd n -> In p (n_parsers n) -> plain cx (p_child p).
Proof. intros H Hn Hp b n' Hr Hb. eapply H; [|exact Hb]. eapply rn_step; eauto. Qed.

(** tryParser on a simple parser *)
Lemma tryParser_simple rec rf p offs s r s' : simple p ->
  tryParser e cx msg rec rf p offs s = EOk (r, s') ->
  s' = s /\
  match r with
  | Some (pos, v) => accepts p offs pos v /\ offs <= pos
  | None => forall to v, ~ accepts p offs to v
  end.
Proof.
  intros [m Hm]. unfold tryParser. rewrite Hm. destruct (Nat.ltb_spec (List.length msg) offs) as [|Hle]; [discriminate|].
  destruct (run_motif e m _ offs (skipn offs msg)) as [[n v]|k|u] eqn:E; try discriminate.
  - intros [= <- <-]. split; auto. split; [|lia]. exists m, n. auto.
  - intros [= <- <-]. split; auto. intros to v (m' & n' & Hk & _ & _ & H). rewrite Hm in Hk. injection Hk as <-.
    unfold named in H. rewrite E in H. discriminate.
Qed.

(** Outcome of the search below node [nd]. *)
Definition outcome (partial : bool) (nd offs : nat) (o : fields) (s : rst) (ok : bool) (s' : rst) : Prop :=
  if ok then
    exists w en, walk partial nd offs w en /\
      (forall w' en', walk partial nd offs w' en' -> before w w') /\
      r_js s' = Some (fields_of o w) /\
      r_end s' = Some (reported cx msg partial nd offs w en) /\
      r_rule s' = r_rule s ++ (if opt_rule (c_opts cx) then mockup_rev w else [])
  else
    (forall w en, ~ walk partial nd offs w en) /\
    r_js s' = r_js s /\ r_end s' = r_end s /\ r_rule s' = r_rule s /\
    r_pt s <= r_pt s' /\ (r_pt s' = r_pt s \/ reaches nd offs (r_pt s')) /\
    (forall k, reaches nd offs k -> k <= r_pt s').

(** Same for the alternatives from index [i] on, without the stop at the node itself. *)
Definition loop_outcome (partial : bool) (nd : nat) (i : nat) (ps : list prs) (offs : nat) (o : fields)
  (s : rst) (ok : bool) (s' : rst) : Prop :=
  if ok then
    exists j p to v w en, nth_error ps j = Some p /\ accepts p offs to v /\ walk partial (p_child p) to w en /\
      (forall w' en', walk partial (p_child p) to w' en' -> before w w') /\
      (forall j' p' to' v' w' en', j' < j -> nth_error ps j' = Some p' -> accepts p' offs to' v' -> ~ walk partial (p_child p') to' w' en') /\
      let st := {| st_idx := i + j; st_prs := p; st_from := offs; st_to := to; st_val := v |} in
      r_js s' = Some (fields_of o (st :: w)) /\
      r_end s' = Some (reported cx msg partial (p_child p) to w en) /\
      r_rule s' = r_rule s ++ (if opt_rule (c_opts cx) then mockup_rev (st :: w) else [])
  else
    (forall j p to v w en, nth_error ps j = Some p -> accepts p offs to v -> ~ walk partial (p_child p) to w en) /\
    r_js s' = r_js s /\ r_end s' = r_end s /\ r_rule s' = r_rule s /\
    r_pt s <= r_pt s' /\
    (r_pt s' = r_pt s \/ exists j p to v, nth_error ps j = Some p /\ accepts p offs to v /\
                         (r_pt s' = to \/ reaches (p_child p) to (r_pt s'))) /\
    (forall j p to v, nth_error ps j = Some p -> accepts p offs to v ->
        to <= r_pt s' /\ forall k, reaches (p_child p) to k -> k <= r_pt s').

Lemma mockup_rev_cons st w : mockup_rev (st :: w) = mockup_rev w ++ mockup_of (st_prs st).
Proof. unfold mockup_rev. cbn [rev]. rewrite flat_map_app. cbn. rewrite app_nil_r. reflexivity. Qed.

Lemma parser_loop_spec partial rec rf nd :
  (forall nd' offs' s ok s' o, plain cx nd' -> r_js s = Some o -> rec nd' offs' partial s = EOk (ok, s') ->
     outcome partial nd' offs' o s ok s') ->
  forall ps offs lpt i o s ok s',
  Forall simple ps -> Forall (fun p => plain cx (p_child p)) ps ->
  r_js s = Some o -> lpt <= r_pt s ->
  parser_loop e cx msg rec rf nd ps offs partial lpt s = EOk (ok, s') ->
  loop_outcome partial nd i ps offs o s ok s'.
Proof.
  intros Hrec. induction ps as [|p ps IH]; intros offs lpt i o s ok s' Hsim Hpl Hjs Hlpt H; cbn [parser_loop] in H.
  - injection H as <- <-. cbn. split; [intros [|j]; discriminate|].
    split; [auto|]. split; [auto|]. split; [auto|]. split; [auto|]. split; [auto|]. intros [|j]; discriminate.
  - inversion Hsim as [|? ? Hs1 Hs2]; subst. inversion Hpl as [|? ? Hp1 Hp2]; subst.
    destruct (tryParser e cx msg rec rf p offs s) as [[r s1]|] eqn:Et; [|discriminate]. cbn [ebind] in H.
    apply tryParser_simple in Et as [-> Hr]; auto. destruct r as [[pos v]|].
    + destruct Hr as [Hacc Hpos]. destruct (rec (p_child p) pos partial s) as [[ok2 s2]|] eqn:Er; [|discriminate].
      cbn [ebind] in H. apply (Hrec _ _ _ _ _ o) in Er; auto. destruct ok2.
      * destruct Er as (w & en & Hw & Hfirst & Hj & He & Hru). rewrite Hj, fixJSON_store in H. cbn [ebind] in H.
        injection H as <- <-. exists 0, p, pos, v, w, en.
        split; [reflexivity|]. split; auto. split; auto. split; auto. split; [intros; lia|].
        cbv zeta. rewrite Nat.add_0_r.
        assert (Hsj : forall s3 (b : bool), r_js (set_pt (if b then set_rule (set_js s2 s3) (r_rule (set_js s2 s3) ++ mockup_of p) else set_js s2 s3) (Nat.max (r_pt (if b then set_rule (set_js s2 s3) (r_rule (set_js s2 s3) ++ mockup_of p) else set_js s2 s3)) pos)) = s3)
          by (intros s3 []; reflexivity).
        rewrite Hsj. split; [reflexivity|].
        rewrite mockup_rev_cons. destruct (opt_rule (c_opts cx)); cbn.
        -- split; auto. rewrite Hru, app_assoc. reflexivity.
        -- split; auto.
      * destruct Er as (Hno & Hj & He & Hru & Hpt & Hpt2 & Hpt3).
        eapply (IH offs pos (S i) o) in H; auto; [|cbn; congruence|cbn; lia].
        cbn in H. destruct ok.
        -- destruct H as (j & p' & to & v' & w & en & Hj' & Ha' & Hw & Hf & Hearlier & H1 & H2 & H3).
           exists (S j), p', to, v', w, en. split; auto. split; auto. split; auto. split; auto. split.
           ++ intros [|j'] p0 to' v0 w' en' Hlt Hn0 Ha0.
              ** cbn in Hn0. injection Hn0 as <-. destruct (accepts_fun _ _ _ _ _ _ Hacc Ha0) as [<- <-]. apply Hno.
              ** cbn in Hn0. eapply Hearlier; eauto. lia.
           ++ replace (i + S j) with (S i + j) by lia. split; auto. split; auto. rewrite H3. cbn. rewrite Hru. reflexivity.
        -- destruct H as (H1 & H2 & H3 & H4 & H5 & H6 & H7). cbn in H2, H3, H4, H5, H6.
           split; [|split; [congruence|split; [congruence|split; [congruence|split; [lia|split]]]]].
           ++ intros [|j] p0 to v0 w en Hn0 Ha0.
              ** cbn in Hn0. injection Hn0 as <-. destruct (accepts_fun _ _ _ _ _ _ Hacc Ha0) as [<- <-]. apply Hno.
              ** eapply H1; eauto.
           ++ destruct H6 as [H6|(j & p' & to & v' & Hj' & Ha' & H6)].
              ** destruct (Nat.max_spec (r_pt s2) pos) as [[_ Hm]|[_ Hm]]; rewrite Hm in H6.
                 --- right. exists 0, p, pos, v. auto.
                 --- destruct Hpt2 as [Hpt2|Hpt2]; [left; congruence|]. right. exists 0, p, pos, v. cbn.
                     split; auto. split; auto. right. rewrite H6. auto.
              ** right. exists (S j), p', to, v'. auto.
           ++ intros [|j] p0 to v0 Hn0 Ha0.
              ** cbn in Hn0. injection Hn0 as <-. destruct (accepts_fun _ _ _ _ _ _ Hacc Ha0) as [<- <-]. split; [lia|].
                 intros k Hk. specialize (Hpt3 k Hk). lia.
              ** eapply H7; eauto.
    + replace (set_pt s (Nat.max (r_pt s) lpt)) with s in H.
      2: { rewrite Nat.max_l by lia. destruct s; reflexivity. }
      eapply (IH offs lpt (S i) o) in H; auto. destruct ok.
      * destruct H as (j & p' & to & v' & w & en & Hj' & Ha' & Hw & Hf & Hearlier & H1 & H2 & H3).
        exists (S j), p', to, v', w, en. split; auto. split; auto. split; auto. split; auto. split.
        -- intros [|j'] p0 to' v0 w' en' Hlt Hn0 Ha0.
           ++ cbn in Hn0. injection Hn0 as <-. destruct (Hr _ _ Ha0).
           ++ eapply Hearlier; eauto. lia.
        -- replace (i + S j) with (S i + j) by lia. auto.
      * destruct H as (H1 & H2 & H3 & H4 & H5 & H6 & H7).
        split; [|split; [auto|split; [auto|split; [auto|split; [auto|split]]]]].
        -- intros [|j] p0 to v0 w en Hn0 Ha0; [cbn in Hn0; injection Hn0 as <-; destruct (Hr _ _ Ha0)|eapply H1; eauto].
        -- destruct H6 as [H6|(j & p' & to & v' & Hj' & H6)]; auto. right. exists (S j), p', to, v'. auto.
        -- intros [|j] p0 to v0 Hn0 Ha0; [cbn in Hn0; injection Hn0 as <-; destruct (Hr _ _ Ha0)|eapply H7; eauto].
Qed.

Lemma plain_node nd n : plain cx nd -> node_at nd n ->
  Forall simple (n_parsers n) /\ Forall (fun p => plain cx (p_child p)) (n_parsers n).
Proof.
  intros H Hn. split; [eapply H; [constructor|exact Hn]|]. apply Forall_forall. intros p Hp. eapply plain_child; eauto.
Qed.

Lemma normalizeRec_spec partial : forall fuel nd offs s ok s' o, plain cx nd -> r_js s = Some o ->
  normalizeRec e cx msg fuel nd offs partial s = EOk (ok, s') -> outcome partial nd offs o s ok s'.
Proof.
  induction fuel as [|f IH]; intros nd offs s ok s' o Hpl Hjs H; cbn [normalizeRec] in H; [discriminate|].
  unfold norm_step in H. destruct (get_node (c_nodes cx) nd) as [n|] eqn:En; [|discriminate]. cbn [ebind] in H.
  apply get_node_at in En. destruct (plain_node nd n Hpl En) as [Hs1 Hs2].
  set (s0 := set_log s ((nd, true) :: r_log s)) in *.
  destruct (parser_loop e cx msg (normalizeRec e cx msg f) f nd (n_parsers n) offs partial (r_pt s0) s0) as [[ok1 s1]|] eqn:El; [|discriminate].
  cbn [ebind] in H. eapply (parser_loop_spec partial _ f nd) with (i := 0) (o := o) in El; eauto.
  assert (Hst : stops_at cx msg partial nd offs = (n_term n && (Nat.eqb offs (List.length msg) || partial))%bool).
  { unfold stops_at. unfold EngineSpec.node_at in En. rewrite En. reflexivity. }
  rewrite <- Hst in H. destruct ok1.
  - destruct El as (j & p & to & v & w & en & Hj & Ha & Hw & Hf & Hear & H1 & H2 & H3). cbv zeta in H1, H2, H3. cbn [Nat.add] in *.
    set (st := {| st_idx := j; st_prs := p; st_from := offs; st_to := to; st_val := v |}) in *.
    assert (Hok : ok = true) by (destruct (stops_at cx msg partial nd offs); congruence). subst ok.
    exists (st :: w), en. split; [eapply walk_step; eauto|]. split; [|split; [|split]].
    + intros w' en' Hw'. inversion Hw' as [|nd' n' offs' i' p' to' v' w2 en2 Hn' Hi' Ha' Hw2]; subst; [constructor|].
      rewrite (node_at_fun _ _ _ Hn' En) in *. destruct (Nat.lt_trichotomy j i') as [|[<-|Hlt]].
      * apply bf_less. auto.
      * rewrite Hj in Hi'. injection Hi' as <-. destruct (accepts_fun _ _ _ _ _ _ Ha Ha') as [<- <-].
        apply bf_tail; auto. eapply Hf; eauto.
      * exfalso. eapply Hear; eauto.
    + destruct (stops_at cx msg partial nd offs); injection H as <-; auto.
    + cbn [reported]. destruct (stops_at cx msg partial nd offs); injection H as <-; auto.
    + destruct (stops_at cx msg partial nd offs); injection H as <-; auto.
  - destruct El as (H1 & H2 & H3 & H4 & H5 & H6 & H7). destruct (stops_at cx msg partial nd offs) eqn:Est.
    + injection H as <- <-. symmetry in Hst. apply andb_true_iff in Hst as [Ht Hc].
      assert (Hc' : offs = List.length msg \/ partial = true).
      { apply orb_true_iff in Hc as [Hc|Hc]; auto. left. apply Nat.eqb_eq; auto. }
      exists [], nd. split; [econstructor; eauto|]. split.
      * intros w' en' Hw'. inversion Hw' as [|nd' n' offs' i' p' to' v' w2 en2 Hn' Hi' Ha' Hw2]; subst; [constructor|].
        rewrite (node_at_fun _ _ _ Hn' En) in *. exfalso. eapply H1; eauto.
      * cbn in H2, H3, H4. split; [cbn; rewrite H2, Hjs; reflexivity|]. split; [cbn; rewrite Est; reflexivity|].
        cbn. rewrite H4. destruct (opt_rule _); cbn; rewrite app_nil_r; reflexivity.
    + injection H as <- <-. split; [|split; [auto|split; [auto|split; [auto|split; [auto|split]]]]].
      * intros w en Hw. inversion Hw as [nd' n' offs' Hn' Ht Hc|nd' n' offs' i' p' to' v' w2 en2 Hn' Hi' Ha' Hw2]; subst.
        -- rewrite (node_at_fun _ _ _ Hn' En) in *. rewrite Ht in Hst. cbn in Hst. symmetry in Hst. apply orb_false_iff in Hst as [Ha Hb].
           apply Nat.eqb_neq in Ha. destruct Hc; congruence.
        -- rewrite (node_at_fun _ _ _ Hn' En) in *. eapply H1; eauto.
      * destruct H6 as [H6|(j & p & to & v & Hj & Ha & [H6|H6])]; [left; auto| |].
        -- right. rewrite H6. eapply reach_one; eauto.
        -- right. eapply reach_more; eauto.
      * intros k Hk. inversion Hk as [nd' n' offs' i' p' to' v' Hn' Hi' Ha'|nd' n' offs' i' p' to' v' pos Hn' Hi' Ha' Hr]; subst;
        rewrite (node_at_fun _ _ _ Hn' En) in *; edestruct H7 as [H8 H9]; eauto.
Qed.
End Facts.
