(** * EngineGen: soundness of the normalizer on every rule graph. *)
From Verif Require Import Base Time Parsers Engine EngineSpec EngineSpec2 BaseFacts EngineFacts EngineFacts2.
From Coq Require Import ZifyBool ZifyNat ZifyN.

Section Gen.
Variable e : env.
Variable cx : ctx.
Variable msg : text.
Notation gwalk := (gwalk e cx msg).
Notation gaccepts := (gaccepts e cx msg).
Notation gitems := (gitems e cx msg).

Lemma fixJSON_opt p v js js' : fixJSON p v js = EOk js' -> js' = option_map (store (p_name p) v) js.
Proof.
  destruct js as [o|]; [rewrite fixJSON_store; intros [= <-]; reflexivity|]. unfold fixJSON. destruct (p_name p) as [nm|]; [|intros [= <-]; reflexivity].
  destruct (text_eqb nm (L ".")); [|discriminate]. destruct v as [| | | | | |[|? ?]]; intros H; try discriminate; injection H as <-; reflexivity.
Qed.

Definition sound (partial : bool) (nd offs : nat) (s : rst) (ok : bool) (s' : rst) : Prop :=
  if ok then exists w en last, gwalk partial nd offs w en last /\ r_js s' = option_map (fun o => fields_of o w) (r_js s) /\
    goes_on w last (r_pt s') /\ r_end s' = Some (reported cx msg partial nd offs w en)
  else r_js s' = r_js s /\ r_end s' = r_end s.
Definition sound_rec (rec : nat -> nat -> bool -> rst -> er (bool * rst)) : Prop :=
  forall nd offs partial s ok s', rec nd offs partial s = EOk (ok, s') -> sound partial nd offs s ok s'.

Lemma item_value_eq o : dot_value o (JObj o) = item_value o.
Proof.
  assert (HG : forall l d, dot_value l d = match find (fun kv : text * json => if list_eq_dec ascii_dec (fst kv) (L ".") then true else false) (rev l) with Some (_, v) => v | None => d end).
  { induction l as [|[k v] l IH]; intros d; [reflexivity|]. cbn [dot_value rev]. rewrite IH. clear IH. induction (rev l) as [|[k' v'] r IHr].
    - cbn [find app fst]. destruct (list_eq_dec ascii_dec k (L ".")) as [->|Hn]; [reflexivity|]. destruct (text_eqb k (L ".")) eqn:E; [apply text_eqb_true in E; congruence|reflexivity].
    - cbn [find app fst]. destruct (list_eq_dec ascii_dec k' (L ".")); auto. }
  apply HG.
Qed.

Lemma repeat_sound rec pn wn permit : sound_rec rec -> forall f strt lkg arr s o s1,
  repeat_loop rec f pn wn permit strt lkg arr s = EOk (o, s1) ->
  match o with
  | None => True
  | Some (pos, v) =>
      (exists vs, vs <> [] /\ gitems pn wn permit strt vs pos /\ v = JArr (match arr with Some l => l | None => [] end ++ vs)) \/
      (permit = true /\ pos = lkg /\ v = match arr with Some l => JArr l | None => JNull end)
  end.
Proof.
  intros Hrec. induction f as [|f IH]; intros strt lkg arr s o s1 H; cbn [repeat_loop] in H; [discriminate|].
  apply ebind_ok in H as ([ok s2] & H1 & H). apply Hrec in H1. destruct ok; cbn [negb] in H.
  - destruct H1 as (w & en & last & Hw & Hj & Hgo & _). cbn [r_js set_end set_js option_map] in Hj. rewrite Hj in H. rewrite item_value_eq in H.
    apply ebind_ok in H as ([ok2 s3] & H2 & H). apply Hrec in H2. destruct ok2.
    + destruct H2 as (w2 & en2 & last2 & Hw2 & _ & Hgo2 & _). apply IH in H. destruct o as [[pos v]|]; auto.
      destruct H as [(vs & Hne & Hvs & ->)|(-> & -> & ->)].
      * left. exists (item_value (fields_of [] w) :: vs). split; [discriminate|]. split; [eapply gi_more; eauto|].
        f_equal. rewrite <- app_assoc. reflexivity.
      * left. exists [item_value (fields_of [] w)]. split; [discriminate|]. split; [eapply gi_back; eauto|]. reflexivity.
    + injection H as <- <-. left. exists [item_value (fields_of [] w)]. split; [discriminate|]. split; [eapply gi_last; eauto|]. reflexivity.
  - destruct permit; injection H as <- <-; auto.
Qed.

Lemma try_sound rec rf p offs s o s1 : sound_rec rec -> tryParser e cx msg rec rf p offs s = EOk (o, s1) ->
  r_js s1 = r_js s /\ r_end s1 = r_end s /\ match o with Some (pos, v) => gaccepts p offs pos v | None => True end.
Proof.
  intros Hrec. unfold tryParser. destruct (p_kind p) as [m|pn wn permit|ti] eqn:Ek.
  - destruct (Nat.ltb_spec (List.length msg) offs) as [|Hle]; [discriminate|].
    destruct (run_motif e m _ offs (skipn offs msg)) as [[n v]|k|u] eqn:E; intros [= <- <-]; repeat split.
    apply ga_simple. exists m, n. auto.
  - intros H. apply ebind_ok in H as ([r s2] & H1 & H). injection H as <- <-. repeat split.
    pose proof (repeat_sound _ _ _ _ Hrec _ _ _ _ _ _ _ H1) as HR. destruct r as [[pos v]|]; auto.
    destruct HR as [(vs & Hne & Hvs & ->)|(-> & -> & ->)]; cbn [app].
    + change (match p_name p with Some _ => true | None => false end) with (named p). eapply ga_repeat; eauto.
    + destruct (p_name p); eapply ga_repeat_none; eauto.
  - destruct (nth_error (c_types cx) ti) as [[nm tn]|] eqn:Et; [|discriminate]. intros H. apply ebind_ok in H as ([ok s2] & H1 & H).
    apply Hrec in H1. injection H as <- <-. repeat split. destruct ok; auto.
    destruct H1 as (w & en & last & Hw & Hj & Hgo & _). cbn [r_js set_end set_js option_map] in Hj. rewrite Hj.
    eapply ga_custom; eauto.
Qed.

Lemma loop_sound rec rf nd offs partial : sound_rec rec -> forall ps lpt s ok s',
  parser_loop e cx msg rec rf nd ps offs partial lpt s = EOk (ok, s') ->
  if ok then exists i p to v w en last, nth_error ps i = Some p /\ gaccepts p offs to v /\ gwalk partial (p_child p) to w en last /\
       r_js s' = option_map (fun o => store (p_name p) v (fields_of o w)) (r_js s) /\ (w = [] -> to <= r_pt s') /\ goes_on w last (r_pt s') /\
       r_end s' = Some (reported cx msg partial (p_child p) to w en)
  else r_js s' = r_js s /\ r_end s' = r_end s.
Proof.
  intros Hrec. induction ps as [|p ps IH]; intros lpt s ok s' H; cbn [parser_loop] in H; [injection H as <- <-; auto|].
  apply ebind_ok in H as ([o s1] & H1 & H). apply try_sound in H1 as (Hj1 & He1 & Ho); auto. destruct o as [[pos v]|].
  - apply ebind_ok in H as ([ok2 s2] & H2 & H). apply Hrec in H2. destruct ok2.
    + destruct H2 as (w & en & last & Hw & Hj & Hgo & He). apply ebind_ok in H as (js & Hfix & H). apply fixJSON_opt in Hfix.
      injection H as <- <-. exists 0, p, pos, v, w, en, last. split; [reflexivity|]. split; auto. split; auto.
      assert (HJ : js = option_map (fun o => store (p_name p) v (fields_of o w)) (r_js s)).
      { subst js. rewrite Hj, Hj1. destruct (r_js s); reflexivity. }
      assert (HP : forall b : bool, let x := r_pt (set_pt (if b then set_rule (set_js s2 js) (r_rule (set_js s2 js) ++ mockup_of p) else set_js s2 js) (Nat.max (r_pt (if b then set_rule (set_js s2 js) (r_rule (set_js s2 js) ++ mockup_of p) else set_js s2 js)) pos)) in pos <= x /\ r_pt s2 <= x) by (intros []; cbn; lia).
      specialize (HP (opt_rule (c_opts cx))). destruct HP as [HP1 HP2].
      split; [destruct (opt_rule (c_opts cx)); exact HJ|]. split; [intros _; exact HP1|]. split; [destruct Hgo as [->|Hgo]; [left; reflexivity|right; eapply Nat.le_trans; [exact Hgo|exact HP2]]|].
      destruct (opt_rule (c_opts cx)); exact He.
    + destruct H2 as [Hj2 He2]. apply IH in H. destruct ok; cbn [r_js r_end set_pt set_log] in H; [|intuition congruence].
      destruct H as (i & p' & to & v' & w & en & last & H0 & H3 & H4 & H5 & H6). exists (S i), p', to, v', w, en, last.
      rewrite Hj2, Hj1 in H5. auto 10.
  - apply IH in H. destruct ok; cbn [r_js r_end set_pt] in H; [|intuition congruence].
    destruct H as (i & p' & to & v' & w & en & last & H0 & H3 & H4 & H5 & H6). exists (S i), p', to, v', w, en, last.
    rewrite Hj1 in H5. auto 10.
Qed.

Lemma gwalk_last partial nd offs w en last : gwalk partial nd offs w en last -> w = [] -> last = offs.
Proof. intros H ->. inversion H. reflexivity. Qed.

Lemma normalizeRec_sound : forall fuel, sound_rec (normalizeRec e cx msg fuel).
Proof.
  induction fuel as [|f IH]; intros nd offs partial s ok s' H; cbn [normalizeRec] in H; [discriminate|].
  unfold norm_step in H. apply ebind_ok in H as (n & Hn & H). apply get_node_at in Hn. apply ebind_ok in H as ([ok1 s1] & Hl & H).
  apply loop_sound in Hl; auto.
  assert (Hst : stops_at cx msg partial nd offs = (n_term n && (Nat.eqb offs (List.length msg) || partial))%bool).
  { unfold stops_at. unfold EngineSpec.node_at in Hn. rewrite Hn. reflexivity. }
  rewrite <- Hst in H. destruct ok1.
  - destruct Hl as (i & p & to & v & w & en & last & Hi & Ha & Hw & Hj & Hto & Hgo & He). cbn [r_js set_log] in Hj.
    assert (Hok : ok = true) by (destruct (stops_at cx msg partial nd offs); congruence). subst ok.
    eexists. exists en, last. split; [eapply gwalk_step; eauto|].
    assert (HG : goes_on ({| st_idx := i; st_prs := p; st_from := offs; st_to := to; st_val := v |} :: w) last (r_pt s1)).
    { right. destruct Hgo as [Hw0|]; auto. rewrite (gwalk_last _ _ _ _ _ _ Hw Hw0). auto. }
    cbn [reported]. destruct (stops_at cx msg partial nd offs); injection H as <-; auto.
  - destruct Hl as [Hj He]. cbn [r_js r_end set_log] in Hj, He. destruct (stops_at cx msg partial nd offs) eqn:Est; injection H as <- <-; [|split; auto].
    symmetry in Hst. apply andb_true_iff in Hst as [Ht Hc].
    assert (Hc' : offs = List.length msg \/ partial = true).
    { apply orb_true_iff in Hc as [Hc|Hc]; auto. left. apply Nat.eqb_eq; auto. }
    exists [], nd, offs. split; [econstructor; eauto|]. split; [cbn; rewrite Hj; destruct (r_js s); reflexivity|].
    split; [left; reflexivity|]. cbn [reported]. rewrite Est. reflexivity.
Qed.
End Gen.
