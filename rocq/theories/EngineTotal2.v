(** * EngineTotal2: the normalizer returns although rules may be recursive, as long as something
    is taken before. (EngineTotal.v has the case without recursion.) *)
From Verif Require Import Base Time Parsers Engine EngineSpec EngineWf BaseFacts FieldSpec SafetySpec FieldFacts FieldFacts2 FieldFacts3 FieldFacts4 FieldFacts5
  IntFacts ParserSafe ParserSafe2 EngineFacts EngineFacts2 EngineTotal.
From Coq Require Import ZifyBool ZifyNat ZifyN.

(** like [field_ok] (EngineWf.v), but behind a field that takes something the rank may be anything *)
Definition field_ok2 (cx : ctx) (rk : nat -> nat) (r : nat) (p : prs) : Prop :=
  valid cx (p_child p) /\ (rk (p_child p) < r \/ prod_prs cx p) /\
  match p_kind p with
  | KSimple m => m <> MCee
  | KCustom ti => exists nm tn, nth_error (c_types cx) ti = Some (nm, tn) /\ starter cx tn /\ rk tn < r
  | KRepeat pn wn _ => starter cx pn /\ rk pn < r /\ productive cx wn /\ rk wn < r /\ silent cx wn
  end.
Definition graph_ok2 (cx : ctx) (rk : nat -> nat) : Prop :=
  valid cx (c_root cx) /\ forall i n, node_at cx i n -> Forall (field_ok2 cx rk (rk i)) (n_parsers n).

Section Total.
Variables (e : env) (cx : ctx) (msg : text) (rk : nat -> nat) (M : nat).
Hypothesis Htok : tok_ok e.
Hypothesis Hg : graph_ok2 cx rk.
Hypothesis HB : forall i, valid cx i -> rk i <= M.
Let N := List.length msg.

Definition mu (nd offs : nat) : nat := (N - offs) * S M + rk nd.
Notation orU := (orU e cx msg).
Lemma orU_bind {A B} (x : er A) (f : A -> er B) P Q : orU x P -> (forall a, P a -> orU (f a) Q) -> orU (ebind x f) Q.
Proof. destruct x; cbn; auto. Qed.
Lemma orU_mono {A} (x : er A) (P Q : A -> Prop) : orU x P -> (forall a, P a -> Q a) -> orU x Q.
Proof. destruct x; cbn; auto. Qed.
Lemma mu_le nd a b : a <= b -> mu nd b <= mu nd a.
Proof. intros H. unfold mu. assert ((N - b) * S M <= (N - a) * S M) by (apply Nat.mul_le_mono_r; lia). lia. Qed.
Lemma mu_more nd' a b : a < b -> b <= N -> rk nd' <= M -> mu nd' b < (N - a) * S M.
Proof. intros H Hb HM'. unfold mu. assert ((N - b) * S M + S M <= (N - a) * S M) by (replace ((N - b) * S M + S M) with (S (N - b) * S M) by lia; apply Nat.mul_le_mono_r; lia). lia. Qed.

Definition good (nd offs : nat) (s : rst) (r : bool * rst) : Prop :=
    r_pt s <= r_pt (snd r) <= N /\ (r_js s <> None -> r_js (snd r) <> None) /\
    (fst r = true -> exists en n, r_end (snd r) = Some en /\ node_at cx en n /\ n_term n = true) /\
    (fst r = true -> starter cx nd -> offs <= r_pt (snd r)) /\ (fst r = true -> productive cx nd -> offs < r_pt (snd r)).

Definition good_rec (rec : nat -> nat -> bool -> rst -> er (bool * rst)) (r : nat) : Prop :=
  forall nd offs partial s, valid cx nd -> mu nd offs < r -> offs <= N -> r_pt s <= N -> (r_js s = None -> silent cx nd) ->
    orU (rec nd offs partial s) (good nd offs s).

Lemma repeat_good rec r pn wn permit lo : good_rec rec r -> starter cx pn -> mu pn lo < r -> productive cx wn -> mu wn lo < r -> silent cx wn ->
  forall f strt lkg arr s, N - strt < f -> strt <= N -> lo <= strt -> lo <= lkg <= N -> r_pt s <= N ->
  orU (repeat_loop rec f pn wn permit strt lkg arr s) (fun r =>
    match fst r with Some (pos, v) => lo <= pos <= N /\ (permit = false -> productive cx pn -> lo < pos) | None => True end).
Proof.
  intros Hrec Hpn Hrpn Hwn Hrwn Hsil. induction f as [|f IH]; intros strt lkg arr s Hf Hs Hlo Hlkg Hpt; [lia|]. cbn [repeat_loop].
  eapply orU_bind; [apply Hrec; auto using starter_valid; [pose proof (mu_le pn lo strt Hlo); lia|cbn; discriminate]|].
  intros [ok s1] (Hp1 & Hj1 & He1 & Hst1 & Hpr1). cbn [fst snd r_pt set_end set_js] in *. destruct ok; cbn [negb].
  - specialize (Hst1 eq_refl Hpn).
    eapply orU_bind; [apply Hrec; auto; [apply starter_valid, productive_starter; auto|pose proof (mu_le wn lo (r_pt s1) ltac:(lia)); lia|lia|cbn; lia]|].
    intros [ok2 s2] (Hp2 & _ & _ & _ & Hpr2). cbn [fst snd] in *. destruct ok2.
    + specialize (Hpr2 eq_refl Hwn). apply IH; try lia.
    + cbn. split; [lia|]. intros _ Hpp. specialize (Hpr1 eq_refl Hpp). lia.
  - destruct permit; cbn; auto. split; [lia|discriminate].
Qed.

Lemma try_good rec rf b r p offs s : good_rec rec b -> (N - offs) * S M + r <= b -> in_graph cx p -> field_ok2 cx rk r p -> N < rf -> offs <= N -> r_pt s <= N ->
  orU (tryParser e cx msg rec rf p offs s) (fun '(o, s1) => r_pt s1 = r_pt s /\ r_js s1 = r_js s /\
    match o with Some (pos, v) => offs <= pos <= N /\ (prod_prs cx p -> offs < pos) | None => True end).
Proof.
  intros Hrec Hb Hin (Hv & Hrk & Hk) Hrf Ho Hpt. unfold tryParser. destruct (p_kind p) as [m|pn wn permit|ti] eqn:Ek.
  - destruct (Nat.ltb_spec (List.length msg) offs); [unfold N in *; lia|].
    destruct (run_motif e m _ offs (skipn offs msg)) as [[n v]|k|u] eqn:Er; cbn [orU].
    + split; auto. split; auto. pose proof Er as Er2. apply motif_len in Er2; auto. rewrite skipn_length in Er2.
      split; [unfold N in *; lia|]. intros Hp. inversion Hp as [p' m' Hk' Hcm|p' ti nm tn Hk'|p' pn wn Hk']; subst; rewrite Ek in Hk'; try discriminate.
      injection Hk' as <-. match type of Er with run_motif _ _ ?w _ _ = _ => pose proof (motif_pos e m w offs (skipn offs msg) Hcm) as HP end.
      rewrite Er in HP. unfold pos1 in HP. cbn in HP. lia.
    + auto.
    + apply motif_ub in Er. exists p, m, offs. auto.
  - destruct Hk as (Hs & Hr1 & Hpw & Hr2 & Hsil).
    eapply orU_bind; [apply (repeat_good rec b pn wn permit offs Hrec Hs ltac:(unfold mu; lia) Hpw ltac:(unfold mu; lia) Hsil rf offs offs None s); auto; lia|].
    intros [o s1] Hpos. cbn [orU fst] in *. split; [reflexivity|]. split; [reflexivity|].
    destruct o as [[pos v]|]; auto. destruct Hpos as [H1 H2]. split; auto. intros Hp.
    inversion Hp as [p' m' Hk' Hcm|p' ti nm tn Hk'|p' pn' wn' Hk']; subst; rewrite Ek in Hk'; try discriminate. injection Hk' as <- <- ->. auto.
  - destruct Hk as (nm & tn & Hty0 & Hst & Hr1). rewrite Hty0.
    eapply orU_bind; [apply Hrec; auto using starter_valid; [unfold mu; lia|cbn; discriminate]|].
    intros [ok s1] (Hp1 & Hj1 & He1 & Hst1 & Hpr1). cbn [orU fst snd] in *. split; [reflexivity|]. split; [reflexivity|]. destruct ok; auto.
    split; [split; [auto|lia]|]. intros Hp. inversion Hp as [p' m' Hk' Hcm|p' ti' nm' tn' Hk' Hty Hpt'|p' pn' wn' Hk']; subst; rewrite Ek in Hk'; try discriminate.
    injection Hk' as <-. assert (tn' = tn) by congruence. subst. auto.
Qed.

Lemma loop_good rec rf b r nd partial offs : good_rec rec b -> (N - offs) * S M + r <= b -> N < rf -> offs <= N ->
  forall ps lpt s, Forall (in_graph cx) ps -> Forall (field_ok2 cx rk r) ps -> r_pt s <= N -> lpt <= N ->
  (r_js s = None -> Forall (fun p => p_name p = None /\ silent cx (p_child p)) ps) ->
  orU (parser_loop e cx msg rec rf nd ps offs partial lpt s) (fun '(ok, s') => r_pt s <= r_pt s' <= N /\ (r_js s <> None -> r_js s' <> None) /\
    (ok = true -> exists en n, r_end s' = Some en /\ node_at cx en n /\ n_term n = true) /\
    (ok = true -> offs <= r_pt s') /\ (ok = true -> Forall (prod_prs cx) ps -> offs < r_pt s')).
Proof.
  intros Hrec Hb Hrf Ho. induction ps as [|p ps IH]; intros lpt s Hgr Hf Hpt Hlp Hsil; cbn [parser_loop].
  - cbn. repeat split; auto; discriminate.
  - inversion Hf as [|? ? Hp Hps]; subst. inversion Hgr as [|? ? Hg1 Hg2]; subst.
    assert (Hsil' : r_js s = None -> Forall (fun p => p_name p = None /\ silent cx (p_child p)) ps) by (intros K; specialize (Hsil K); inversion Hsil; auto).
    eapply orU_bind; [apply (try_good rec rf b r p offs s Hrec Hb Hg1 Hp Hrf Ho Hpt)|]. intros [o s1] (Hp1 & Hj1 & Hpos).
    destruct o as [[pos v]|].
    + destruct Hpos as [Hpos Hprod]. destruct Hp as (Hv & Hr & _).
      assert (Hmu : mu (p_child p) pos < b).
      { destruct Hr as [Hr|Hr]; [unfold mu; assert ((N - pos) * S M <= (N - offs) * S M) by (apply Nat.mul_le_mono_r; lia); lia|]. pose proof (mu_more (p_child p) offs pos (Hprod Hr) ltac:(lia) (HB _ Hv)). lia. }
      eapply orU_bind; [apply Hrec; auto; [lia|lia|]|].
      { rewrite Hj1. intros K. specialize (Hsil K). inversion Hsil; subst; tauto. }
      intros [ok s2] (Hp2 & Hj2 & He2 & _ & _). cbn [fst snd] in *. destruct ok.
      * destruct (fix_good p v (r_js s2)) as (js & -> & Hjs).
        { intros K. destruct (r_js s) eqn:Ej; [|specialize (Hsil eq_refl); inversion Hsil; subst; tauto]. exfalso. apply Hj2; [congruence|exact K]. }
        cbn [ebind orU]. split; [|split; [|split; [|split]]].
        -- destruct (opt_rule (c_opts cx)); cbn; lia.
        -- intros K. destruct (opt_rule (c_opts cx)); cbn; apply Hjs, Hj2; congruence.
        -- intros _. destruct (He2 eq_refl) as (en & n & H1 & H2). exists en, n. destruct (opt_rule (c_opts cx)); cbn; auto.
        -- intros _. destruct (opt_rule (c_opts cx)); cbn; lia.
        -- intros _ K. inversion K; subst. specialize (Hprod ltac:(auto)). destruct (opt_rule (c_opts cx)); cbn; lia.
      * eapply orU_mono; [apply IH; auto; try (cbn; lia)|].
        { cbn. intros K. apply Hsil'. destruct (r_js s) eqn:Ej; auto. exfalso. apply Hj2; [congruence|exact K]. }
        intros [ok' s'] (H2 & H3 & H4 & H5 & H6). cbn in H2, H3. repeat split; auto; try lia.
        -- intros K. apply H3, Hj2. congruence.
        -- intros K1 K2. inversion K2; subst. auto.
    + eapply orU_mono; [apply IH; auto; try (cbn; lia)|].
      { cbn. rewrite Hj1. auto. }
      intros [ok' s'] (H2 & H3 & H4 & H5 & H6). cbn in H2, H3. repeat split; auto; try lia.
      -- rewrite Hj1 in H3. auto.
      -- intros K1 K2. inversion K2; subst. auto.
Qed.

Lemma good_rec_mono rec r r' : r' <= r -> good_rec rec r -> good_rec rec r'.
Proof. intros Hr H nd offs partial s Hv Hrk. apply H; auto. lia. Qed.

Lemma normalizeRec_good : forall fuel, good_rec (normalizeRec e cx msg fuel) (fuel - N - 1).
Proof.
  induction fuel as [|f IH]; intros nd offs partial s Hv Hrk Ho Hpt Hsil; [lia|]. cbn [normalizeRec]. unfold norm_step.
  destruct Hv as [n Hn]. unfold get_node. rewrite Hn. cbn [ebind]. destruct Hg as [_ Hfields].
  eapply orU_bind; [apply (loop_good (normalizeRec e cx msg f) f (f - N - 1) (rk nd) nd partial offs); auto|].
  - unfold mu in Hrk. lia.
  - lia.
  - apply Forall_forall. intros p Hp. exists nd, n. auto.
  - cbn. intros K. specialize (Hsil K). apply Forall_forall. intros p Hp. pose proof (Hsil nd n (rn_refl cx nd) Hn) as H0. rewrite Forall_forall in H0. split; auto.
    intros b nb Hb Hnb. eapply Hsil; [|exact Hnb]. eapply rn_step; eauto.
  - intros [ok s'] (H2 & H3 & H4 & H5 & H6). cbn in H2, H3.
    destruct (n_term n) eqn:Et; cbn [andb].
    + destruct (_ || _)%bool; cbn [orU]; unfold good; cbn [fst snd].
      * split; [exact H2|]. split; [exact H3|]. split; [intros _; exists nd, n; auto|].
        split; intros _ K; [|apply productive_starter in K]; destruct K as (n' & Hn' & Ht'); unfold node_at in *; congruence.
      * split; [exact H2|]. split; [exact H3|]. split; [exact H4|]. split; [auto|].
        intros _ K. apply productive_starter in K. destruct K as (n' & Hn' & Ht'); unfold node_at in *; congruence.
    + cbn [orU]; unfold good; cbn [fst snd]. split; [exact H2|]. split; [exact H3|]. split; [exact H4|]. split; [auto|].
      intros K1 K2. apply H6; auto. inversion K2 as [i n' Hn' Ht' HF]; subst. unfold node_at in *. replace n with n' by congruence. exact HF.
Qed.

Lemma normalize_total2 fuel js0 : report_ok cx -> mu (c_root cx) 0 + N + 2 <= fuel ->
  orU (normalize fuel e cx msg js0) (fun _ => True).
Proof.
  intros (Ha & Hl & Hr) Hf. unfold normalize. fold (st0 js0). destruct fuel as [|fuel]; [lia|].
  assert (HG : orU (normalizeRec e cx msg (S fuel) (c_root cx) 0 false (st0 js0)) (good (c_root cx) 0 (st0 js0))).
  { apply normalizeRec_good; [apply Hg|lia|lia|cbn [r_pt st0]; lia|cbn; discriminate]. }
  destruct (normalizeRec e cx msg (S fuel) (c_root cx) 0 false (st0 js0)) as [[ok s]|u] eqn:Hrun; [|exact HG].
  destruct HG as (Hpt & Hj & He & _). cbn [fst snd] in *.
  cbn [ebind]. destruct ok; cbv zeta.
  - destruct (He eq_refl) as (en & n & -> & Hn & Ht). unfold get_node at 1. rewrite Hn. cbn [ebind].
    assert (HA : exists o2, (match n_tags n with None => EOk (match r_js s with Some x => x | None => [] end)
          | Some tags => annotate (c_annots cx) tags (obj_add (match r_js s with Some x => x | None => [] end) (L "event.tags") tags) end) = EOk o2).
    { destruct (n_tags n) as [tags|]; [|eauto]. apply (annotate_good (c_annots cx)). exact Ha. }
    destruct HA as [o2 ->]. cbn [ebind]. generalize (if opt_orig (c_opts cx) then obj_add o2 (L "originalmsg") (JStr msg) else o2). intros o3.
    assert (HM : exists o4, add_metadata cx n (r_rule s) o3 = EOk o4).
    { unfold add_metadata. destruct (opt_rule (c_opts cx)) eqn:Er.
      - destruct (Hr eq_refl) as [Hst Hmk].
        assert (HR : filter (fun c => negb (ceq c NUL)) (r_rule s) <> []).
        { cbn [normalizeRec] in Hrun. unfold norm_step in Hrun. apply ebind_ok in Hrun as (n0 & Hn0 & Hrun). apply ebind_ok in Hrun as ([ok s1] & Hlp & Hrun).
          apply get_node_at in Hn0. destruct Hst as (n' & Hn' & Ht'). unfold node_at in *. rewrite Hn' in Hn0. injection Hn0 as <-. rewrite Ht' in Hrun. cbn [andb] in Hrun.
          injection Hrun as -> ->. apply loop_rule in Hlp as (p & r & Hin & Hrr); [|exact Er]. destruct (Hmk _ _ _ Hn' Hin) as (c & Hc & Hnc).
          intros K. assert (HI : In c (filter (fun c => negb (ceq c NUL)) (r_rule s))).
          { apply filter_In. split; [rewrite Hrr; apply in_or_app; auto|]. unfold ceq. destruct (Ascii.eqb_spec c NUL); [congruence|reflexivity]. }
          rewrite K in HI. exact HI. }
        destruct (filter _ (r_rule s)) as [|c0 l0]; [congruence|]. cbn [ebind].
        destruct (opt_loc (c_opts cx)); [|cbn; eauto]. specialize (Hl eq_refl _ _ Hn Ht). destruct (n_file n); [|congruence]. cbn. eauto.
      - cbn [ebind]. destruct (opt_loc (c_opts cx)); [|cbn; eauto]. specialize (Hl eq_refl _ _ Hn Ht). destruct (n_file n); [|congruence]. cbn. eauto. }
    destruct HM as [o4 ->]. exact I.
  - destruct (Nat.ltb_spec (List.length msg) (r_pt s)); [unfold N in *; lia|]. exact I.
Qed.
End Total.
Lemma normalize_safe2 e cx msg rk M fuel js0 : tok_ok e -> graph_ok2 cx rk -> (forall i, valid cx i -> rk i <= M) -> report_ok cx -> fields_usable cx -> harmless e msg ->
  List.length msg * S M + rk (c_root cx) + List.length msg + 2 <= fuel -> exists ok o cx', normalize fuel e cx msg js0 = EOk (ok, o, cx').
Proof.
  intros H1 H2 HM H3 H4 H5 H6. assert (HT : orU e cx msg (normalize fuel e cx msg js0) (fun _ => True)).
  { eapply normalize_total2; eauto. unfold mu. rewrite Nat.sub_0_r. exact H6. }
  destruct (normalize fuel e cx msg js0) as [[[ok o] cx']|u]; [eauto|]. destruct (harmless_not_exposed cx e msg u H5 H4 HT).
Qed.
