(** * EngineGen2: what failure means on every rule graph. *)
From Verif Require Import Base Time Parsers Engine EngineSpec EngineSpec2 BaseFacts EngineFacts EngineFacts2 EngineGen.
From Coq Require Import ZifyBool ZifyNat ZifyN.

Section Gen2.
Variable e : env.
Variable cx : ctx.
Variable msg : text.
Notation gaccepts := (gaccepts e cx msg).
Notation accepts := (accepts e msg).
Notation walk := (walk e cx msg).
Notation reaches := (reaches e cx msg).
Notation greaches := (greaches e cx msg).

Definition fails (partial : bool) (nd offs : nat) (s : rst) (ok : bool) (s' : rst) : Prop :=
  r_pt s <= r_pt s' /\
  (ok = false -> (forall w en, ~ walk partial nd offs w en) /\ (forall k, reaches nd offs k -> k <= r_pt s') /\
     (r_pt s' = r_pt s \/ greaches nd offs (r_pt s'))).
Definition fails_rec (rec : nat -> nat -> bool -> rst -> er (bool * rst)) : Prop :=
  forall nd offs partial s ok s', rec nd offs partial s = EOk (ok, s') -> fails partial nd offs s ok s'.

Lemma try_pt rec rf p offs s o s1 : tryParser e cx msg rec rf p offs s = EOk (o, s1) ->
  r_pt s1 = r_pt s /\ (forall to v, accepts p offs to v -> o = Some (to, v)).
Proof.
  unfold tryParser. destruct (p_kind p) as [m|pn wn permit|ti] eqn:Ek.
  - destruct (Nat.ltb_spec (List.length msg) offs) as [|Hle]; [discriminate|]. intros H.
    assert (HA : forall to v, accepts p offs to v -> exists n, to = offs + n /\ run_motif e m (named p) offs (skipn offs msg) = Ok (n, v)).
    { intros to v (m' & n & Hk & _ & -> & Hr). rewrite Ek in Hk. injection Hk as <-. eauto. }
    unfold named in HA.
    destruct (run_motif e m _ offs (skipn offs msg)) as [[n v]|k|u]; [| |discriminate].
    + injection H as <- <-. split; [reflexivity|]. intros to v' Ha. destruct (HA _ _ Ha) as (n' & -> & Hr). congruence.
    + injection H as <- <-. split; [reflexivity|]. intros to v' Ha. destruct (HA _ _ Ha) as (n' & -> & Hr). discriminate.
  - intros H. apply ebind_ok in H as ([r s2] & _ & H). injection H as <- <-. split; [reflexivity|].
    intros to v (m & n & Hk & _). rewrite Ek in Hk. discriminate.
  - destruct (nth_error (c_types cx) ti) as [[nm tn]|]; [|discriminate]. intros H. apply ebind_ok in H as ([ok s2] & _ & H).
    injection H as <- <-. split; [reflexivity|]. intros to v (m & n & Hk & _). rewrite Ek in Hk. discriminate.
Qed.

Lemma loop_fails rec rf nd offs partial : sound_rec e cx msg rec -> fails_rec rec -> forall ps lpt s ok s', lpt <= r_pt s ->
  parser_loop e cx msg rec rf nd ps offs partial lpt s = EOk (ok, s') ->
  r_pt s <= r_pt s' /\
  (ok = false -> forall j p, nth_error ps j = Some p ->
     forall to v, accepts p offs to v -> to <= r_pt s' /\ (forall w en, ~ walk partial (p_child p) to w en) /\
        (forall k, reaches (p_child p) to k -> k <= r_pt s')) /\
  (ok = false -> r_pt s' = r_pt s \/ exists j p to v, nth_error ps j = Some p /\ gaccepts p offs to v /\
     (r_pt s' = to \/ greaches (p_child p) to (r_pt s'))).
Proof.
  intros Hso Hrec. induction ps as [|p ps IH]; intros lpt s ok s' Hl H; cbn [parser_loop] in H.
  - injection H as <- <-. split; auto. split; auto. intros _ [|j]; discriminate.
  - apply ebind_ok in H as ([o s1] & H1 & H). destruct (try_pt _ _ _ _ _ _ _ H1) as [Hpt Hacc].
    destruct (try_sound _ _ _ _ _ _ _ _ _ _ Hso H1) as (_ & _ & Hga). destruct o as [[pos v]|].
    + apply ebind_ok in H as ([ok2 s2] & H2 & H). apply Hrec in H2 as [Hmono Hf]. destruct ok2.
      * apply ebind_ok in H as (js & _ & H). injection H as <- <-. split; [|split; discriminate].
        destruct (opt_rule (c_opts cx)); cbn; lia.
      * destruct (Hf eq_refl) as (Hf1 & Hf2 & Hf3). apply IH in H; [|cbn; lia]. destruct H as (G1 & G2 & G3).
        cbn [r_pt set_pt set_log] in G1, G3. split; [lia|]. split.
        -- intros -> [|j] p' Hp to v' Ha; [|eapply G2; eauto]. injection Hp as <-. specialize (Hacc _ _ Ha). injection Hacc as <- <-.
           split; [lia|]. split; [exact Hf1|]. intros k Hk. specialize (Hf2 k Hk). lia.
        -- intros ->. destruct (G3 eq_refl) as [G|(j & p' & to & v' & K1 & K2 & K3)].
           ++ destruct (Nat.max_spec (r_pt s2) pos) as [[_ Hm]|[_ Hm]]; rewrite Hm in G.
              ** right. exists 0, p, pos, v. auto.
              ** destruct Hf3 as [Hf3|Hf3]; [left; congruence|]. right. exists 0, p, pos, v. split; [reflexivity|]. split; auto. right. rewrite G. auto.
           ++ right. exists (S j), p', to, v'. auto.
    + apply IH in H; [|cbn; lia]. destruct H as (G1 & G2 & G3). cbn [r_pt set_pt] in G1, G3.
      split; [lia|]. split.
      * intros -> [|j] p' Hp to v' Ha; [|eapply G2; eauto]. injection Hp as <-. specialize (Hacc _ _ Ha). discriminate.
      * intros ->. destruct (G3 eq_refl) as [G|(j & p' & to & v' & K1 & K2 & K3)]; [left; lia|]. right. exists (S j), p', to, v'. auto.
Qed.

Lemma normalizeRec_fails : forall fuel, fails_rec (normalizeRec e cx msg fuel).
Proof.
  induction fuel as [|f IH]; intros nd offs partial s ok s' H; cbn [normalizeRec] in H; [discriminate|].
  unfold norm_step in H. apply ebind_ok in H as (n & Hn & H). apply get_node_at in Hn. apply ebind_ok in H as ([ok1 s1] & Hl & H).
  apply loop_fails in Hl; auto; [|apply normalizeRec_sound]. destruct Hl as (G1 & G2 & G3). cbn [r_pt set_log] in G1, G3.
  destruct (n_term n && (Nat.eqb offs (List.length msg) || partial))%bool eqn:Et; injection H as <- <-; (split; [exact G1|]); [discriminate|].
  intros ->. split; [|split].
  - intros w en Hw. inversion Hw as [nd' n' offs' Hn' Ht Hc|nd' n' offs' i p to v w' en' Hn' Hi Ha Hw']; subst; replace n' with n in * by (eapply node_at_fun; eauto).
    + rewrite Ht in Et. destruct Hc as [->| ->]; [rewrite Nat.eqb_refl in Et|rewrite orb_true_r in Et]; discriminate.
    + destruct (G2 eq_refl _ _ Hi _ _ Ha) as (_ & K & _). exact (K _ _ Hw').
  - intros k Hk. inversion Hk as [nd' n' offs' i p to v Hn' Hi Ha|nd' n' offs' i p to v pos Hn' Hi Ha Hr]; subst; replace n' with n in * by (eapply node_at_fun; eauto);
      destruct (G2 eq_refl _ _ Hi _ _ Ha) as (K1 & _ & K2); auto.
  - destruct (G3 eq_refl) as [G|(j & p & to & v & K1 & K2 & K3)]; [left; exact G|right]. destruct K3 as [->|K3].
    + eapply greach_one; eauto.
    + eapply greach_more; eauto.
Qed.

Lemma normalize_fails fuel js0 o cx' : normalize fuel e cx msg js0 = EOk (false, o, cx') ->
  (forall w en, ~ walk false (c_root cx) 0 w en) /\
  exists k, (k = 0 \/ greaches (c_root cx) 0 k) /\ (forall k', reaches (c_root cx) 0 k' -> k' <= k) /\ k <= List.length msg /\
    o = set_member (set_member js0 (L "originalmsg") (JStr msg)) (L "unparsed-data") (JStr (cstr (skipn k msg))).
Proof.
  intros H. apply normalize_inv in H as (s & Hs & _ & Hle & Ho). pose proof (normalizeRec_fails _ _ _ _ _ _ _ Hs) as [_ HF].
  destruct (HF eq_refl) as (H1 & H2 & H3). apply normalizeRec_sound in Hs. destruct Hs as [Hj _]. cbn in Hj, H3.
  split; [exact H1|]. exists (r_pt s). rewrite Hj, !obj_add_set in Ho. auto.
Qed.
End Gen2.
