(** * V1Add: adding a rule to a v1 parse tree adds exactly that rule. *)
From Verif Require Import Base BaseFacts Parsers FieldFacts Engine EngineFacts2 Samp SynSpec SynFacts V1 V1Spec V1Facts.

Lemma vkind_eqb_true a b : vkind_eqb a b = true -> a = b.
Proof. unfold vkind_eqb. rewrite Nat.eqb_eq. destruct a, b; cbn [vkind_id]; intros E; solve [reflexivity | discriminate E]. Qed.
Lemma vkind_eqb_refl a : vkind_eqb a a = true.
Proof. apply Nat.eqb_refl. Qed.

Lemma opt_text_eqb_true a b : opt_text_eqb a b = true -> a = b.
Proof. destruct a, b; cbn; intros H; try discriminate; auto. apply text_eqb_true in H. congruence. Qed.
Lemma opt_text_eqb_refl a : opt_text_eqb a a = true.
Proof. destruct a; cbn; auto. apply text_eqb_refl. Qed.

Section Add.
Variable e : env.

Lemma same_eq a b : vf_ok e a -> vf_ok e b -> vfield_same a b = true -> a = b.
Proof.
  unfold vf_ok, vfield_same. destruct a as [n1 k1 d1 r1], b as [n2 k2 d2 r2]; cbn. intros -> -> H.
  apply andb_prop in H. destruct H as (H & H3). apply andb_prop in H. destruct H as (H1 & H2).
  apply text_eqb_true in H1. apply vkind_eqb_true in H2. apply opt_text_eqb_true in H3. congruence.
Qed.
Lemma same_refl a : vfield_same a a = true.
Proof. unfold vfield_same. rewrite text_eqb_refl, vkind_eqb_refl, opt_text_eqb_refl. reflexivity. Qed.

Definition kids (l : list (vfield * vtree)) : Prop :=
  NoDup (map fst l) /\ Forall (fun x => vf_ok e (fst x)) l /\
  Forall (fun x => good e (snd x) /\ exists r tags, has_rule (snd x) r tags) l.

(** What adding the rule [its] with [tags] does to the rules. *)
Definition added (H H' : list vitem -> option json -> Prop) (its : list vitem) (tags : option json) : Prop :=
  forall x tg, H' x tg <-> (x = its /\ tg = tags) \/ (x <> its /\ H x tg).

Lemma new_no_rule x tg : ~ has_rule vnew x tg.
Proof.
  intros H. apply hr_iff in H. destruct H as (r' & _ & [(_ & E & _)|[(f & t & r2 & _ & [] & _)|(c2 & t & r2 & _ & [] & _)]]). discriminate.
Qed.

Lemma addF_ok k f its tags : vf_ok e f ->
  (forall u, (u = vnew \/ (good e u /\ exists r tg, has_rule u r tg)) ->
     exists u', k u = EOk u' /\ good e u' /\ added (has_rule u) (has_rule u') its tags) ->
  forall fs, kids fs -> exists fs', addFDescr k f fs = EOk fs' /\ kids fs' /\
    (forall g, In g (map fst fs') <-> g = f \/ In g (map fst fs)) /\
    (forall g x tg, (exists t, In (g, t) fs' /\ has_rule t x tg) <->
        (g = f /\ x = its /\ tg = tags) \/ (~ (g = f /\ x = its) /\ exists t, In (g, t) fs /\ has_rule t x tg)).
Proof.
  intros Hf Hk. induction fs as [|[g t] fs IH]; intros (ND & HV & HG).
  - destruct (Hk vnew) as (u' & E & G & A); [auto|].
    cbn [addFDescr]. rewrite E. cbn [ebind]. exists [(f, u')]. split; auto.
    assert (HR : exists r tg, has_rule u' r tg) by (exists its, tags; apply A; auto).
    split. { split; [constructor; [intros []|constructor]|]. split; constructor; auto. }
    split. { cbn. intros g. split; intros [H|H]; auto. }
    intros g x tg. split.
    + intros (t & [E1|[]] & H). injection E1 as <- <-. apply A in H. destruct H as [H|(_ & H)]; auto.
      exfalso. eapply new_no_rule; eauto.
    + intros [(-> & -> & ->)|(_ & t & [] & _)]. exists u'. split; [left; auto|]. apply A. auto.
  - cbn [map fst] in ND. apply NoDup_cons_iff in ND. destruct ND as (NI & ND).
    apply Forall_cons_iff in HV. destruct HV as (HV1 & HV). apply Forall_cons_iff in HG. destruct HG as (HG1 & HG).
    cbn [fst snd] in *. cbn [addFDescr].
    destruct (vfield_same g f) eqn:ES.
    + apply same_eq in ES; auto. subst g.
      destruct (Hk t) as (u' & E & G & A); [auto|]. rewrite E. cbn [ebind].
      exists ((f, u') :: fs). split; auto.
      assert (HR : exists r tg, has_rule u' r tg) by (exists its, tags; apply A; auto).
      split. { split; [constructor; auto|]. split; constructor; auto. }
      split. { cbn. intros g. split; intros [H|H]; auto. }
      intros g x tg. split.
      * intros (t' & [E1|HI] & H).
        -- injection E1 as <- <-. apply A in H. destruct H as [(-> & ->)|(NE & H)]; auto.
           right. split; [tauto|]. exists t. split; [left; auto|auto].
        -- right. split; [intros (-> & _); apply NI; apply in_map_iff; exists (f, t'); auto|].
           exists t'. split; [right; auto|auto].
      * intros [(-> & -> & ->)|(NE & t' & [E1|HI] & H)].
        -- exists u'. split; [left; auto|]. apply A; auto.
        -- injection E1 as <- <-. exists u'. split; [left; auto|]. apply A. right. split; auto.
        -- exists t'. split; [right; auto|auto].
    + assert (g <> f) by (intros ->; rewrite same_refl in ES; discriminate).
      destruct IH as (fs' & E & (ND' & HV' & HG') & HIN & HT); [split; auto|]. rewrite E. cbn [ebind].
      exists ((g, t) :: fs'). split; auto.
      split. { split; [constructor; auto; rewrite HIN; intros [|]; auto|]. split; constructor; auto. }
      split. { cbn. intros h. rewrite HIN. tauto. }
      intros h x tg. split.
      * intros (t' & [E1|HI] & HR).
        -- injection E1 as <- <-. right. split; [intros (-> & _); auto|]. exists t. split; [left; auto|auto].
        -- destruct (proj1 (HT h x tg)) as [|(NE & t2 & HI2 & HR2)]; [eauto|auto|].
           right. split; auto. exists t2. split; [right; auto|auto].
      * intros [HH|(NE & t' & [E1|HI] & HR)].
        -- destruct (proj2 (HT h x tg)) as (t2 & HI2 & HR2); [auto|]. exists t2. split; [right; auto|auto].
        -- injection E1 as <- <-. exists t. split; [left; auto|auto].
        -- destruct (proj2 (HT h x tg)) as (t2 & HI2 & HR2); [right; eauto|]. exists t2. split; [right; auto|auto].
Qed.

(** ** Rule text *)
Lemma doubled_spelled s : spelled (doubled s) s.
Proof.
  induction s as [|c s IH]; [constructor|]. cbn [doubled]. destruct (ceq c "%") eqn:E.
  - apply ceq_true in E as ->. apply sp_pct; auto.
  - apply sp_char; auto. apply ceq_false; auto.
Qed.

Lemma isspace_pct : isspace "%" = false. Proof. reflexivity. Qed.

Lemma field_text_head ft f r : field_text e ft f -> exists c u, ft ++ r = c :: u /\ c <> "%"%char.
Proof.
  assert (HH : forall b1 name X, blanks b1 -> name <> [] -> hd NUL name <> "%"%char ->
     exists c u, ((b1 ++ name ++ X) ++ r)%list = c :: u /\ c <> "%"%char).
  { intros b1 name X Hb Hn Hp. destruct b1 as [|c b1].
    - destruct name as [|c name]; [congruence|]. cbn in *. eauto.
    - apply Forall_cons_iff in Hb. destruct Hb as (Hb & _). cbn. exists c. eexists. split; [reflexivity|].
      intros ->. discriminate Hb. }
  destruct 1; apply HH; auto.
Qed.

Lemma vtypes_names : Forall (fun x => no_blank_end (L (fst x)) /\ Forall (fun c => negb (ceq c ":" || ceq c "%") = true) (L (fst x))
   /\ vtype_find vtypes (L (fst x)) = Some (snd x)) vtypes.
Proof.
  assert (HH : forall s, (match rev (L s) with c :: _ => negb (isspace c) | [] => true end) = true -> no_blank_end (L s)).
  { intros s H u c E. rewrite E, rev_app_distr in H. cbn in H. destruct (isspace c); auto. }
  unfold vtypes at 2.
  repeat (apply Forall_cons; [split; [apply HH; vm_compute; reflexivity|split; [apply Forall_forall; apply (proj1 (forallb_forall _ _)); vm_compute; reflexivity|vm_compute; reflexivity]]|]).
  constructor.
Qed.

Lemma scan_app P (a b : text) : Forall (fun c => P c = true) a -> (forall c r, b = c :: r -> P c = false) -> scan P (a ++ b) = List.length a.
Proof.
  induction 1 as [|c a Hc Ha IH]; intros Hb; cbn [app scan List.length].
  - destruct b as [|c b]; [reflexivity|]. cbn [scan]. rewrite (Hb c b eq_refl). reflexivity.
  - rewrite Hc, IH; auto.
Qed.

Lemma skipn_lapp {A} (a b : list A) : skipn (List.length a) (a ++ b) = b.
Proof. apply skipn_pre. Qed.

Lemma vfieldDescr_ok ft f r : field_text e ft f -> vfieldDescr e (ft ++ r) = Ok (f, r) /\ vf_ok e f.
Proof.
  assert (HT : forall b2, blanks b2 -> Forall (fun c => negb (ceq c ":" || ceq c "%") = true) b2).
  { intros b2 H. eapply Forall_impl; [|exact H]. cbn. intros c Hc. destruct (ceq c ":") eqn:E1.
    - apply ceq_true in E1 as ->. discriminate. - destruct (ceq c "%") eqn:E2; auto. apply ceq_true in E2 as ->. discriminate. }
  assert (HW : forall c s, without c s -> Forall (fun x => negb (ceq x c) = true) s).
  { intros c s H. apply Forall_forall. intros x Hx. destruct (ceq x c) eqn:E; auto. apply ceq_true in E as ->. exfalso; auto. }
  assert (HP : forall b1 name ty kd b2 X, blanks b1 -> blanks b2 -> name <> [] -> without ":" name ->
     isspace (hd NUL name) = false -> In (ty, kd) vtypes -> (forall c r, X = c :: r -> negb (ceq c ":" || ceq c "%") = false) ->
     vfieldDescr e (b1 ++ name ++ ":"%char :: L ty ++ b2 ++ X) =
      match X with
          | [] => Bad 0
          | c :: u =>
                  if ceq c "%" then
                    Ok ({| vf_name := name; vf_kind := kd; vf_data := None; vf_raw := None |}, u)
                  else
                    let d := scan (fun c => negb (ceq c "%")) u in
                    Ok ({| vf_name := name; vf_kind := kd;
                           vf_data := Some (unescape e (firstn d u));
                           vf_raw := Some (firstn d u) |}, skipn (S d) u)
          end).
  { intros b1 name ty kd b2 X Hb1 Hb2 Hn Hc Hs HI HX.
    pose proof (proj1 (Forall_forall _ _) vtypes_names _ HI) as (T1 & T2 & T3). cbn [fst snd] in T1, T2, T3.
    unfold vfieldDescr.
    rewrite (scan_app isspace b1).
    2:exact Hb1. 2:{ intros c r0 E. destruct name; [congruence|]. injection E as <- _. exact Hs. }
    rewrite skipn_lapp.
    rewrite (scan_app (fun c => negb (ceq c ":")) name) by (auto; intros c r0 [= <- _]; reflexivity).
    rewrite firstn_pre, skipn_lapp.
    destruct name as [|n0 name]; [congruence|].
    rewrite app_assoc.
    rewrite (scan_app (fun c => negb (ceq c ":" || ceq c "%")) (L ty ++ b2)) by (try exact HX; apply Forall_app; auto).
    rewrite firstn_pre, skipn_lapp, rtrim_app by auto.
    rewrite T3. destruct X; reflexivity. }
  destruct 1 as [b1 name ty b2 kd Hb1 Hb2 Hn Hc Hs Hp HI|b1 name ty b2 kd extra Hb1 Hb2 Hn Hc Hs Hp HI HE].
  - split; [|reflexivity].
    replace ((b1 ++ name ++ ":"%char :: L ty ++ b2 ++ ["%"%char]) ++ r)%list with (b1 ++ name ++ ":"%char :: L ty ++ b2 ++ ("%"%char :: r))%list
      by (rewrite <- !app_assoc; cbn [app]; rewrite <- !app_assoc; reflexivity).
    rewrite (HP b1 name ty kd b2) by (auto; intros c r0 [= <- _]; reflexivity). reflexivity.
  - split; [|reflexivity].
    replace ((b1 ++ name ++ ":"%char :: L ty ++ b2 ++ ":"%char :: extra ++ ["%"%char]) ++ r)%list with (b1 ++ name ++ ":"%char :: L ty ++ b2 ++ (":"%char :: extra ++ "%"%char :: r))%list
      by (rewrite <- !app_assoc; cbn [app]; rewrite <- !app_assoc; cbn [app]; rewrite <- !app_assoc; reflexivity).
    rewrite (HP b1 name ty kd b2) by (auto; intros c r0 [= <- _]; reflexivity).
    change (ceq ":" "%") with false. cbn [orb].
    rewrite (scan_app (fun c => negb (ceq c "%")) extra) by (auto; intros c r0 [= <- _]; reflexivity).
    rewrite firstn_pre. cbv zeta.
    f_equal. f_equal. change (skipn (List.length extra + 1) (extra ++ "%"%char :: r) = r) || idtac.
    clear. induction extra; cbn in *; auto.
Qed.

(** ** A rule *)
Hypothesis Hue : unescape e [] = [].

Definition usable (t : vtree) : Prop := good e t /\ (t = vnew \/ exists r tags, has_rule t r tags).

Lemma below_dec_nil (r : list vitem) : r = [] \/ r <> [].
Proof. destruct r; [auto|right; discriminate]. Qed.

Lemma replaced_added t s u u' t' r0 tags : replaced t s u u' t' ->
  added (below u) (below u') r0 tags -> added (has_rule t) (has_rule t') (lit s ++ r0) tags.
Proof.
  intros (R1 & R2) A x tg. rewrite R2. split.
  - intros [(r & -> & H)|(N & H)].
    + apply A in H. destruct H as [(-> & ->)|(NE & H)]; auto. right. split.
      * intros E. apply app_inv_head in E. auto.
      * apply R1; auto.
    + right. split; auto.
  - intros [(-> & ->)|(NE & H)].
    + left. exists r0. split; auto. apply A; auto.
    + destruct (pref_dec s x) as [(r & ->)|N]; [|auto]. left. exists r. split; auto. apply A. right.
      split; [intros ->; auto|]. apply R1; auto.
Qed.

Lemma usable_build t (s : text) : usable t -> ((isTrueLeaf t = true /\ s = s) \/ exists r tags, has_rule t r tags).
Proof. intros (_ & [->|H]); auto. Qed.

Lemma vterminal_ok tags u : good e u -> exists u', EOk (vterminal tags u) = EOk u' /\ pfx u' = pfx u /\ good e u' /\
  (exists r tg, below u' r tg) /\ added (below u) (below u') [] tags.
Proof.
  destruct u as [p tm tg fs ls]. intros G. exists (VNode p true tags fs ls). split; auto. split; auto.
  split; [eapply good_pfx; eauto|]. split; [exists [], tags; apply below_iff; auto|].
  intros r tg'. rewrite !below_iff. split.
  - intros [(-> & _ & <-)|[H|H]]; auto.
    + destruct H as (f & t & r' & -> & H). right. split; [discriminate|]. right; left; eauto.
    + destruct H as (f & t & r' & -> & H). right. split; [discriminate|]. right; right; eauto.
  - intros [(-> & ->)|(NE & [(-> & _)|H])]; auto. congruence.
Qed.

Definition vcont (fuel : nat) (tags : option json) (rest : text) (t : vtree) : er vtree :=
            match rest with
            | [] => EOk (vterminal tags t)
            | _ :: u =>
                match vfieldDescr e u with
                | Ub x => EUb x
                | Bad _ => EOk t
                | Ok (fd, rest') =>
                    match t with
                    | VNode p tm tg fs ls =>
                        do* fs' := addFDescr (fun t' =>
                           match rest' with
                           | [] => build (fun t'' => EOk (vterminal tags t'')) [] t' []
                           | _ => vadd e fuel tags rest' t'
                           end) fd fs in
                        EOk (VNode p tm tg fs' ls)
                    end
                end
            end.
Lemma vadd_eq fuel tags rule t l rest : rule <> [] -> literal_part rule = (l, rest) ->
  vadd e (S fuel) tags rule t = build (vcont fuel tags rest) (unescape e l) t (unescape e l).
Proof. intros Hr E. destruct rule; [congruence|]. cbn [vadd]. rewrite E. reflexivity. Qed.

Lemma vadd_ok : forall rule its, rule_text e rule its -> forall fuel tags t, rule <> [] ->
  List.length rule < fuel -> usable t ->
  exists t', vadd e fuel tags rule t = EOk t' /\ good e t' /\ added (has_rule t) (has_rule t') its tags.
Proof.
  induction 1 as [s Hs|s ft f u its Hs Hft Hu IH]; intros fuel tags t Hr Hl Ht.
  - destruct fuel as [|fuel]; [lia|].
    rewrite (vadd_eq fuel tags (doubled s) t s []); auto.
    2:{ rewrite <- (app_nil_r (doubled s)). apply spelled_part; [apply doubled_spelled|auto]. }
    destruct (build_ok e (fun u u' => added (below u) (below u') [] tags) (vcont fuel tags []) (unescape e s) Hs
       (vterminal_ok tags) t (unescape e s)) as (t' & u & u' & E & G' & HR & Gu & A & RP).
    { apply Ht. } { exists []; auto. } { apply usable_build; auto. }
    exists t'. split; [exact E|]. split; auto. rewrite <- (app_nil_r (lit _)). eapply replaced_added; eauto.
  - destruct fuel as [|fuel]; [lia|].
    rewrite (vadd_eq fuel tags _ t s ("%"%char :: ft ++ u)%list); auto.
    2:{ destruct (field_text_head ft f u Hft) as (c & v & -> & Hc).
        apply spelled_part; [apply doubled_spelled|]. right. eauto. }
    destruct (vfieldDescr_ok ft f u Hft) as (EF & OKF).
    destruct (build_ok e (fun v v' => added (below v) (below v') (VF f :: its) tags)
      (vcont fuel tags ("%"%char :: ft ++ u)%list) (unescape e s) Hs) with (t := t) (s := unescape e s) as (t' & v & v' & E & G' & HR & Gv & A & RP).
    2:{ apply Ht. } 2:{ exists []; auto. } 2:{ apply usable_build; auto. }
    2:{ exists t'. split; [exact E|]. split; auto. eapply replaced_added; eauto. }
    intros [p tm tg fs ls] G. cbn [vcont]. rewrite EF.
    assert (KD : kids fs) by (inversion G; subst; split; auto).
    destruct (addF_ok (fun t' => match u with
                           | [] => build (fun t'' => EOk (vterminal tags t'')) [] t' []
                           | _ => vadd e fuel tags u t'
                           end) f its tags OKF) with (fs := fs) as (fs' & E & (ND' & HV' & HG') & HIN & HT); auto.
    { intros w Hw.
      assert (UW : usable w).
      { destruct Hw as [->|(Gw & HRw)]; [split; [apply good_new|auto]|split; auto]. }
      destruct u as [|c u'].
      - assert (its = []) as ->.
        { inversion Hu as [s0 Hs0 E0 E1|s0 ft0 f0 u0 its0 H1 H2 H3 E0 E1].
          - destruct s0; [rewrite Hue; reflexivity|]. cbn in E0. destruct (ceq a "%"); discriminate.
          - destruct (doubled s0); discriminate. }
        destruct (build_ok e (fun u u' => added (below u) (below u') [] tags) (fun t => EOk (vterminal tags t)) [] ltac:(cbn; lia)
           (vterminal_ok tags) w []) as (w' & x & x' & E & G1 & HR & Gu & A & RP).
        { apply UW. } { exists []; auto. } { destruct UW as (_ & [->|H]); auto. }
        exists w'. split; [exact E|]. split; auto. exact (replaced_added _ _ _ _ _ _ _ RP A).
      - apply IH; auto; [discriminate|]. rewrite app_length in Hl. cbn [List.length] in Hl. rewrite app_length in Hl. lia. }
    cbv zeta. rewrite E. cbn [ebind]. exists (VNode p tm tg fs' ls). split; auto. split; auto.
    split. { inversion G; subst. constructor; auto. }
    assert (AB : added (below (VNode p tm tg fs ls)) (below (VNode p tm tg fs' ls)) (VF f :: its) tags).
    { intros r tg'. rewrite !below_iff. split.
      - intros [(-> & -> & ->)|[(g & w & r' & -> & HI & HR)|(c & w & r' & -> & HI & HR)]].
        + right. split; [discriminate|]. auto.
        + destruct (proj1 (HT g r' tg')) as [(-> & -> & ->)|(NE & w2 & HI2 & HR2)]; [eauto|auto|].
          right. split; [intros [= -> ->]; auto|]. right; left. eauto 6.
        + right. split; [discriminate|]. right; right; eauto 6.
      - intros [(-> & ->)|(NE & [H|[(g & w & r' & -> & HI & HR)|H]])]; auto.
        + right; left. destruct (proj2 (HT f its tags)) as (w & HI & HR); [auto|]. eauto 6.
        + right; left. destruct (proj2 (HT g r' tg')) as (w2 & HI2 & HR2); [right; split; [intros (-> & ->); auto|eauto]|]. eauto 6. }
    split; [exists (VF f :: its), tags; apply AB; auto|exact AB].
Qed.
End Add.
