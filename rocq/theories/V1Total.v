(** * V1Total: the v1 matcher always gives an answer; the top of normalization. *)
From Verif Require Import Base BaseFacts Parsers FieldFacts Engine EngineFacts2 Samp LoadSpec AnnotSpec AnnotFacts SynFacts V1 V1Spec V1Facts V1Add V1Match.

Section T.
Variable e : env.
Variable msg : text.
Variable runf : vfield -> nat -> res (nat * json).
Local Notation n := (List.length msg).
Local Notation vrec := (vrec e msg runf).

Definition safe_tree (t : vtree) : Prop := forall its tags f, has_rule t its tags -> In (VF f) its -> vf_kind f <> KRest -> vf_kind f <> KIptables -> forall o u, runf f o <> Ub u.
Definition total (t : vtree) : Prop := good e t -> tame_tree t -> safe_tree t -> forall offs js en, exists r, vrec t offs js en = EOk r.

Lemma child_safe_f p tm tg fs ls f t : safe_tree (VNode p tm tg fs ls) -> In (f, t) fs -> safe_tree t.
Proof. intros H HI its tags g HR HG. apply (H (lit p ++ VF f :: its) tags g); [eapply vp_field; eauto|]. apply in_or_app. right. right. exact HG. Qed.
Lemma child_safe_l p tm tg fs ls c t : safe_tree (VNode p tm tg fs ls) -> In (c, t) ls -> safe_tree t.
Proof. intros H HI its tags g HR HG. apply (H (lit p ++ VC c :: its) tags g); [eapply vp_lit; eauto|]. apply in_or_app. right. right. exact HG. Qed.
Lemma child_safe_run p tm tg fs ls f t : safe_tree (VNode p tm tg fs ls) -> In (f, t) fs -> ruled t -> vf_kind f <> KRest -> vf_kind f <> KIptables -> forall o u, runf f o <> Ub u.
Proof. intros H HI (its & tags & HR). apply (H (lit p ++ VF f :: its) tags f); [eapply vp_field; eauto|]. apply in_or_app. right. left. reflexivity. Qed.

Lemma outcome_hit t offs js r js' en : outcome msg runf t offs js r js' en -> exists b, vhit r en = EOk b.
Proof. intros [(its & vs & o' & tags & -> & -> & _)|(_ & _ & H & _)]; [exists true; reflexivity|eauto]. Qed.

Lemma floop_total p tm tg ls offs : forall fs fs0, incl fs fs0 -> good e (VNode p tm tg fs0 ls) -> tame_tree (VNode p tm tg fs0 ls) ->
  safe_tree (VNode p tm tg fs0 ls) -> Forall (fun x => total (snd x)) fs -> forall r js en rest, exists st, floop e msg runf offs fs r js en rest = EOk st.
Proof.
  induction fs as [|[f t] fs IH]; intros fs0 HI G T S FT r js en rest; [eexists; reflexivity|].
  apply Forall_cons_iff in FT. destruct FT as (T1 & FT). cbn [snd] in T1.
  assert (HI1 : In (f, t) fs0) by (apply HI; left; auto).
  assert (HI2 : incl fs fs0) by (intros x Hx; apply HI; right; auto).
  assert (GT : good e t /\ ruled t).
  { inversion G as [p1 tm1 tg1 fs1 ls1 ND1 ND2 HV HGf HGl]; subst. apply (proj1 (Forall_forall _ _) HGf (f, t) HI1). }
  destruct GT as (Gt & Rt). assert (Tt : tame_tree t) by (eapply child_tame_f; eauto). assert (St : safe_tree t) by (eapply child_safe_f; eauto).
  specialize (IH fs0 HI2 G T S FT). cbn [floop].
  destruct (vkind_eqb (vf_kind f) KIptables) eqn:EK.
  { destruct (Nat.eqb offs n); [apply IH|]. destruct (T1 Gt Tt St n (v1_ipt (Datatypes.S n) (skipn offs msg) js) en) as ([[lft js1] en1] & EV). rewrite EV. cbn [ebind].
    destruct (outcome_hit _ _ _ _ _ _ (vrec_spec e msg runf t Gt Tt _ _ _ _ _ _ EV)) as (b & ->). cbn [ebind].
    destruct b; [eexists; reflexivity|apply IH]. }
  assert (NK : vf_kind f <> KIptables) by (intros X; rewrite X in EK; discriminate EK).
  destruct (vkind_eqb (vf_kind f) KRest) eqn:ER; [apply IH|].
  destruct (runf f offs) as [[nxt v]| |u] eqn:EF; [|apply IH|].
  - destruct (T1 Gt Tt St nxt js en) as ([[lft js1] en1] & EV). rewrite EV. cbn [ebind].
    destruct (outcome_hit _ _ _ _ _ _ (vrec_spec e msg runf t Gt Tt _ _ _ _ _ _ EV)) as (b & ->). cbn [ebind].
    destruct b; [eexists; reflexivity|apply IH].
  - exfalso. eapply child_safe_run; eauto. intros EE; rewrite EE in ER; discriminate.
Qed.

Theorem vrec_total : forall t, total t.
Proof.
  induction t as [p tm tg fs ls IHf IHl] using vtree_ind'. intros G T S offs js en.
  destruct (vrec (VNode p tm tg fs ls) offs js en) as [r|x] eqn:E; [eauto|exfalso].
  rewrite vrec_eq in E. destruct (Nat.leb_spec n offs) as [|HO0]; [discriminate|]. cbv zeta in E.
  destruct (Nat.ltb _ _); [destruct (Nat.ltb _ _); discriminate|].
  set (o := offs + _) in *.
  assert (HOn : o <= n).
  { destruct (cpl_spec p (skipn offs msg)) as (q & p2 & u2 & _ & Eu & Ec & _). unfold o. rewrite Ec. apply (f_equal (@List.length _)) in Eu. rewrite app_length, skipn_length in Eu. lia. }
  destruct (floop_total p tm tg ls o fs fs (incl_refl _) G T S IHf (Z.of_nat (n - o)) js en None) as (st & EL).
  rewrite EL in E. cbn [ebind] in E.
  assert (IHs : Forall (fun x => spec e msg runf (snd x)) fs) by (apply Forall_forall; intros; apply vrec_spec).
  pose proof (floop_spec e msg runf p tm tg ls o HOn fs fs (incl_refl _) G T IHs _ _ _ _ _ (Zle_0_nat _) EL) as FL.
  destruct st as [js1 en1|r1 js1 en1 rest]; [discriminate|]. destruct FL as (-> & HR1 & _ & _ & HRE).
  destruct (nth_error msg o) as [c|] eqn:EN; [|discriminate].
  assert (HO : o < n) by (apply nth_error_Some; congruence).
  assert (Hr1 : (0 < r1)%Z) by (destruct HR1 as [->|(X & _)]; lia).
  inversion G as [p1 tm1 tg1 fs1 ls1 ND1 ND2 HV HGf HGl]; subst p1 tm1 tg1 fs1 ls1.
  assert (HLT : forall l, incl l ls -> exists x, lloop e msg runf c o l r1 js en1 = EOk x).
  { induction l as [|[c' t] l IH]; intros HI; [eexists; reflexivity|]. cbn [lloop].
    destruct (ceq c c'); [|apply IH; intros y Hy; apply HI; right; auto].
    assert (HI1 : In (c', t) ls) by (apply HI; left; auto).
    pose proof (proj1 (Forall_forall _ _) IHl (c', t) HI1) as TT. cbn [snd] in TT.
    pose proof (proj1 (Forall_forall _ _) HGl (c', t) HI1) as (GT & RT). cbn [snd] in GT.
    assert (T2 : tame_tree t) by (eapply child_tame_l; eauto). assert (S2 : safe_tree t) by (eapply child_safe_l; eauto).
    destruct (TT GT T2 S2 (Datatypes.S o) js en1) as ([[lft js2] en2] & EV).
    rewrite EV. cbn [ebind]. eauto. }
  destruct (HLT ls (incl_refl _)) as ([[r2 js2] en2] & ELL). rewrite ELL in E. cbn [ebind] in E.
  assert (HTl : Forall (fun x => tame_tree (snd x)) ls).
  { apply Forall_forall. intros [c' t] HI. cbn [snd]. eapply child_tame_l; eauto. }
  assert (IHs2 : Forall (fun x => spec e msg runf (snd x)) ls) by (apply Forall_forall; intros; apply vrec_spec).
  pose proof (lloop_spec e msg runf c o ls r1 js en1 r2 js2 en2 ND2 HGl HTl IHs2 Hr1 ELL) as HLL.
  assert (HH : exists b, vhit r2 en2 = EOk b).
  { destruct HLL as [(_ & -> & _)|(t & _ & [(its & vs & o' & tags & -> & -> & _)|(_ & _ & HH & _)])]; eauto.
    - unfold vhit. destruct (Z.eqb_spec r1 0); [lia|eauto].
    - exists true. reflexivity. }
  destruct HH as (b & EH). rewrite EH in E. cbn [ebind] in E. destruct b; [discriminate|].
  destruct rest as [[f sub]|]; [|discriminate].
  destruct HRE as [(X & _)|(g & w & HI & HK & X)]; [discriminate|]. injection X as -> ->.
  pose proof (proj1 (Forall_forall _ _) HGf (g, w) HI) as (GT & RT). cbn [snd] in GT, RT.
  assert (HO3 : forall its tags, has_rule w its tags -> its = []) by (eapply child_kind; eauto).
  destruct (only_nil e w GT RT HO3) as (tags & ->).
  rewrite vrec_eq in E. rewrite Nat.leb_refl in E. cbn [ebind List.length Z.of_nat Z.opp] in E.
  change (Z.eqb 0 0) with true in E. cbn [andb negb] in E. rewrite andb_false_r in E. discriminate.
Qed.
End T.
