(** * V1Match: what the v1 matcher finds, for every tree and every message. *)
From Verif Require Import Base BaseFacts Parsers FieldFacts Engine EngineFacts2 Samp SynFacts V1 V1Spec V1Ipt V1Facts V1Add.

Section M.
Variable e : env.
Variable msg : text.
Variable runf : vfield -> nat -> res (nat * json).
Local Notation n := (List.length msg).
Local Notation vrec := (vrec e msg runf).

(** ** The loops of one node *)
Fixpoint floop (offs : nat) (fs : list (vfield * vtree)) (r : Z) (js : fields) (en : option endinfo)
             (rest : option (vfield * (nat -> fields -> option endinfo -> vres))) : er vloop :=
           match fs with
           | [] => EOk (VGo r js en rest)
           | (f, t') :: fs' =>
               if vkind_eqb (vf_kind f) KIptables then
                 if Nat.eqb offs n then floop offs fs' r js en rest
                 else
                   do* (lft, js, en) := vrec t' n (v1_ipt (S n) (skipn offs msg) js) en in
                   do* hit := vhit lft en in
                   if hit then EOk (VDone js en)
                   else floop offs fs' (if Z.ltb lft r then lft else r) js en rest
               else if vkind_eqb (vf_kind f) KRest then floop offs fs' r js en (Some (f, vrec t'))
               else match runf f offs with
                    | Ub x => EUb x
                    | Bad _ => floop offs fs' r js en rest
                    | Ok (nxt, v) =>
                        do* (lft, js, en) := vrec t' nxt js en in
                        do* hit := vhit lft en in
                        if hit then EOk (VDone (vstore f v js) en)
                        else floop offs fs' (if (Z.ltb 0 lft && Z.ltb lft r)%bool then lft else r) js en rest
                    end
           end.

Fixpoint lloop (c : ascii) (offs : nat) (l : list (ascii * vtree)) (r : Z) (js : fields) (en : option endinfo) : vres :=
                   match l with
                   | [] => EOk (r, js, en)
                   | (c', t') :: l' =>
                       if ceq c c' then
                         do* (lft, js, en) := vrec t' (S offs) js en in
                         EOk (if Z.ltb lft r then lft else r, js, en)
                       else lloop c offs l' r js en
                   end.

Definition lastipt (fs : list (vfield * vtree)) : bool :=
  match rev fs with (f, _) :: _ => vkind_eqb (vf_kind f) KIptables | [] => false end.

Lemma vrec_eq p tm tg fs ls offs js en : vrec (VNode p tm tg fs ls) offs js en =
      if Nat.leb n offs then EOk ((- Z.of_nat (List.length p))%Z, js, Some (tm, tg)) else
      let u := skipn offs msg in
      let k := cpl p u in
      if Nat.ltb k (List.length p) then
        if Nat.ltb k (List.length u)
        then EOk (Z.of_nat (List.length u - k), js, en)
        else EOk ((Z.of_nat k - Z.of_nat (List.length p))%Z, js, en)
      else
      let offs := offs + k in
      do* st := floop offs fs (Z.of_nat (n - offs)) js en None in
      match st with
      | VDone js en => EOk (0%Z, js, en)
      | VGo r js en rest =>
          match nth_error msg offs with
          | None => EOk (0%Z, js, Some (tm, tg))
          | Some c =>
              do* (r, js, en) := lloop c offs ls r js en in
              do* hit := vhit r en in
              if hit then EOk (r, js, en) else
              match rest with
              | None => EOk (r, js, en)
              | Some (f, sub) =>
                  let i := if lastipt fs then n else offs in
                  do* (lft, js, en) := sub n js en in
                  if (asserts_on e && negb (Z.eqb lft 0 && match en with Some (b, _) => b | None => false end))%bool
                  then EUb AssertFail
                  else EOk (0%Z, vstore f (JStr (cstr (skipn i msg))) js, en)
              end
          end
      end.
Proof.
  cbn [V1.vrec]. destruct (Nat.leb n offs); [reflexivity|]. cbv zeta.
  destruct (Nat.ltb _ _); [reflexivity|].
  set (o := offs + _).
  assert (FL : forall l r js en rest, (fix go (fs : list (vfield * vtree)) (r : Z) (js : fields) (en : option endinfo)
             (rest : option (vfield * (nat -> fields -> option endinfo -> vres))) : er vloop :=
           match fs with
           | [] => EOk (VGo r js en rest)
           | (f, t') :: fs' =>
               if vkind_eqb (vf_kind f) KIptables then
                 if Nat.eqb o n then go fs' r js en rest
                 else
                   do* (lft, js, en) := vrec t' n (v1_ipt (S n) (skipn o msg) js) en in
                   do* hit := vhit lft en in
                   if hit then EOk (VDone js en)
                   else go fs' (if Z.ltb lft r then lft else r) js en rest
               else if vkind_eqb (vf_kind f) KRest then go fs' r js en (Some (f, vrec t'))
               else match runf f o with
                    | Ub x => EUb x
                    | Bad _ => go fs' r js en rest
                    | Ok (nxt, v) =>
                        do* (lft, js, en) := vrec t' nxt js en in
                        do* hit := vhit lft en in
                        if hit then EOk (VDone (vstore f v js) en)
                        else go fs' (if (Z.ltb 0 lft && Z.ltb lft r)%bool then lft else r) js en rest
                    end
           end) l r js en rest = floop o l r js en rest).
  { clear. induction l as [|[f t] l IH]; intros r js en rest; [reflexivity|]. cbn [floop]. rewrite !IH.
    destruct (vkind_eqb (vf_kind f) KIptables).
    - destruct (Nat.eqb _ _); [reflexivity|]. destruct (vrec t n _ en) as [[[? ?] ?]|]; cbn [ebind]; [|reflexivity].
      destruct (vhit _ _) as [[]|]; cbn [ebind]; try reflexivity. apply IH.
    - destruct (vkind_eqb (vf_kind f) KRest); [reflexivity|]. destruct (runf f o) as [[nxt v]| |]; try reflexivity.
      destruct (vrec t nxt js en) as [[[? ?] ?]|]; cbn [ebind]; [|reflexivity].
      destruct (vhit _ _) as [[]|]; cbn [ebind]; try reflexivity. apply IH. }
  etransitivity; [apply (f_equal (fun x => ebind x _)); apply FL|].
  destruct (floop _ _ _ _ _ _) as [[js1 en1|r1 js1 en1 rest]|]; cbn [ebind]; try reflexivity.
  destruct (nth_error _ _); [|reflexivity].
  match goal with |- ebind ?a _ = ebind ?b _ => replace a with b; [reflexivity|] end.
  clear. induction ls as [|[c t] ls IH]; [reflexivity|]. cbn [lloop]. destruct (ceq a c); [reflexivity|exact IH].
Qed.

(** ** Takes *)
Lemma takes_lit lim p its o o' vs : takes msg runf lim (lit p ++ its) o o' vs <->
  (firstn (List.length p) (skipn o msg) = p /\ takes msg runf lim its (o + List.length p) o' vs).
Proof.
  revert o; induction p as [|c p IH]; intros o; cbn [lit map app List.length].
  - rewrite Nat.add_0_r. cbn [firstn]. tauto.
  - assert (HN : forall c', nth_error msg o = Some c' <-> exists r, skipn o msg = c' :: r /\ r = skipn (S o) msg).
    { clear. revert o. induction msg as [|x m IH]; intros [|o] c'; cbn [nth_error skipn].
      - split; [discriminate|intros (r & E & _); discriminate].
      - split; [discriminate|intros (r & E & _); discriminate].
      - split; [intros [= ->]; eauto|intros (r & E & _); congruence].
      - rewrite IH. reflexivity. }
    split.
    + intros H. inversion H as [|c0 its0 o0 o0' vs0 H3 H5| |]; subst. apply HN in H3. destruct H3 as (r & -> & ->). cbn [firstn].
      fold (lit p) in H5. apply IH in H5. destruct H5 as (H5 & H6). rewrite H5. split; auto.
      replace (o + S (List.length p)) with (S o + List.length p) by lia. exact H6.
    + intros (E & H). destruct (skipn o msg) as [|c' r] eqn:ES; [discriminate|]. cbn [firstn] in E. injection E as -> E.
      assert (HS : nth_error msg o = Some c). { apply HN. exists r. split; auto. clear - ES. revert o ES; induction msg as [|x m IH]; intros [|o] ES; cbn [skipn] in *; try discriminate.
        - congruence. - rewrite (IH o ES). reflexivity. }
      apply tk_char; auto. apply IH. split.
      * apply HN in HS. destruct HS as (r' & E' & ->). assert (EE : r = skipn (S o) msg) by congruence. rewrite <- EE. exact E.
      * replace (S o + List.length p) with (o + S (List.length p)) by lia. exact H.
Qed.

Lemma tame_lit p its : tame (lit p ++ its) <-> tame its.
Proof. induction p; cbn; tauto. Qed.

Definition tame_tree (t : vtree) : Prop := forall its tags, has_rule t its tags -> tame its.
Definition ruled (t : vtree) : Prop := exists r tags, has_rule t r tags.

(** A position that the initial part of a rule reaches; [n - r] for positive [r]. *)
Definition reaches (t : vtree) (offs : nat) (r : Z) : Prop :=
  exists its1 its2 tags o' vs, has_rule t (its1 ++ its2) tags /\ takes msg runf (S n) its1 offs o' vs /\
    ((r <= 0)%Z /\ n <= o' \/ (0 < r)%Z /\ (Z.of_nat o' + r = Z.of_nat n)%Z).

Definition nomatch (t : vtree) (offs : nat) : Prop :=
  forall its tags o' vs, has_rule t its tags -> takes msg runf n its offs o' vs -> n <= o' -> False.

Definition outcome (t : vtree) (offs : nat) (js : fields) (r : Z) (js' : fields) (en' : option endinfo) : Prop :=
  (exists its vs o' tags, r = 0%Z /\ en' = Some (true, tags) /\ has_rule t its tags /\ takes msg runf (S n) its offs o' vs /\ n <= o' /\ js' = store_all vs js)
  \/ (js' = js /\ nomatch t offs /\ vhit r en' = EOk false /\ (ruled t -> reaches t offs r) /\ (r <= Z.of_nat n)%Z).

Lemma takes_end lim its o o' vs : n <= o -> lim <= n -> takes msg runf lim its o o' vs -> its = [].
Proof.
  intros Ho Hl H. inversion H; subst; auto; exfalso.
  - apply nth_error_None in Ho. congruence.
  - lia.
  - lia.
Qed.


Lemma child_tame_f p tm tg fs ls f t : tame_tree (VNode p tm tg fs ls) -> In (f, t) fs -> tame_tree t.
Proof. intros H HI its tags HR. specialize (H (lit p ++ VF f :: its) tags). apply tame_lit in H; [cbn in H; tauto|]. eapply vp_field; eauto. Qed.
Lemma child_tame_l p tm tg fs ls c t : tame_tree (VNode p tm tg fs ls) -> In (c, t) ls -> tame_tree t.
Proof. intros H HI its tags HR. specialize (H (lit p ++ VC c :: its) tags). apply tame_lit in H; [cbn in H; tauto|]. eapply vp_lit; eauto. Qed.
Lemma child_kind p tm tg fs ls f t : tame_tree (VNode p tm tg fs ls) -> In (f, t) fs -> ruled t ->
  vf_kind f = KIptables \/ vf_kind f = KRest -> forall its tags, has_rule t its tags -> its = [].
Proof.
  intros H HI _ HK its tags' HR'. specialize (H (lit p ++ VF f :: its) tags'). apply tame_lit in H; [|eapply vp_field; eauto].
  cbn in H. tauto.
Qed.

(** A node behind a rest field is a bare end. *)
Lemma only_nil t : good e t -> ruled t -> (forall its tags, has_rule t its tags -> its = []) ->
  exists tags, t = VNode [] true tags [] [].
Proof.
  destruct t as [p tm tg fs ls]. intros G (r & tags & HR) H. exists tg.
  assert (p = []) as ->. { apply hr_iff in HR as HR'. destruct HR' as (r' & E & _). rewrite (H _ _ HR) in E. destruct p; [reflexivity|discriminate]. }
  assert (fs = []) as ->.
  { destruct fs as [|[f t] fs]; auto. exfalso. inversion G as [p0 tm0 tg0 fs0 ls0 ND1 ND2 HV HGf HGl]; subst. apply Forall_cons_iff in HGf. destruct HGf as ((_ & r' & tags' & HR') & _).
    assert (HX : has_rule (VNode [] tm tg ((f, t) :: fs) ls) (lit [] ++ VF f :: r') tags') by (eapply vp_field; [left; reflexivity|exact HR']).
    apply H in HX. discriminate. }
  assert (ls = []) as ->.
  { destruct ls as [|[f t] ls]; auto. exfalso. inversion G as [p0 tm0 tg0 fs0 ls0 ND1 ND2 HV HGf HGl]; subst. apply Forall_cons_iff in HGl. destruct HGl as ((_ & r' & tags' & HR') & _).
    assert (HX : has_rule (VNode [] tm tg [] ((f, t) :: ls)) (lit [] ++ VC f :: r') tags') by (eapply vp_lit; [left; reflexivity|exact HR']).
    apply H in HX. discriminate. }
  apply hr_iff in HR. destruct HR as (r' & _ & [(_ & -> & _)|[(f & t & r2 & _ & [] & _)|(c2 & t & r2 & _ & [] & _)]]). reflexivity.
Qed.

Definition spec (t : vtree) : Prop := good e t -> tame_tree t -> forall offs js en r js' en',
  vrec t offs js en = EOk (r, js', en') -> outcome t offs js r js' en'.

Lemma vhit_true r en : vhit r en = EOk true -> r = 0%Z /\ exists tags, en = Some (true, tags).
Proof. unfold vhit. destruct (Z.eqb_spec r 0); [|discriminate]. destruct en as [[[] tags]|]; try discriminate. eauto. Qed.

(** The field loop. *)
Lemma floop_spec p tm tg ls offs : offs <= n -> forall fs fs0, incl fs fs0 -> good e (VNode p tm tg fs0 ls) -> tame_tree (VNode p tm tg fs0 ls) ->
  Forall (fun x => spec (snd x)) fs -> forall r js en rest st, (0 <= r)%Z ->
  floop offs fs r js en rest = EOk st ->
  match st with
  | VDone js' en' => exists f t its vs o1 o' tags v, In (f, t) fs /\ en' = Some (true, tags) /\ has_rule t its tags /\ vf_kind f <> KRest /\
      field_takes msg runf f offs o1 v /\ takes msg runf (S n) its o1 o' vs /\ n <= o' /\ js' = store_all ((f, v) :: vs) js
  | VGo r' js' en' rest' => js' = js /\
      (r' = r \/ ((0 < r' < r)%Z /\ exists f t o1 v, In (f, t) fs /\ vf_kind f <> KRest /\ field_takes msg runf f offs o1 v /\ reaches t o1 r')) /\
      (forall f t o1 v, In (f, t) fs -> vf_kind f <> KRest -> field_takes msg runf f offs o1 v -> nomatch t o1) /\
      (forall f t, In (f, t) fs -> vf_kind f = KIptables -> offs = n) /\
      ((rest' = rest /\ forall f t, In (f, t) fs -> vf_kind f <> KRest) \/
       exists f t, In (f, t) fs /\ vf_kind f = KRest /\ rest' = Some (f, vrec t))
  end.
Proof.
  intros HO. induction fs as [|[f t] fs IH]; intros fs0 HI G T FS r js en rest st Hr E.
  - cbn [floop] in E. assert (st = VGo r js en rest) as -> by congruence. split; auto. split; auto. split; [intros ? ? ? ? []|]. split; [intros ? ? []|]. left. split; [reflexivity|]. intros ? ? HX; destruct HX.
  - apply Forall_cons_iff in FS. destruct FS as (S1 & FS). cbn [snd] in S1.
    assert (HI1 : In (f, t) fs0) by (apply HI; left; auto).
    assert (HI2 : incl fs fs0) by (intros x Hx; apply HI; right; auto).
    assert (GT : good e t /\ ruled t).
    { inversion G as [p1 tm1 tg1 fs1 ls1 ND1 ND2 HV HGf HGl]; subst. apply (proj1 (Forall_forall _ _) HGf (f, t) HI1). }
    destruct GT as (Gt & Rt). pose proof (child_tame_f _ _ _ _ _ _ _ T HI1) as Tt.
    specialize (IH fs0 HI2 G T FS).
    cbn [floop] in E. destruct (vkind_eqb (vf_kind f) KIptables) eqn:EK.
    { apply vkind_eqb_true in EK as EK'. assert (NR : vf_kind f <> KRest) by congruence. destruct (Nat.eqb_spec offs n) as [EO|EO].
      - specialize (IH _ _ _ _ _ Hr E). destruct st as [js' en'|r' js' en' rest'].
        + destruct IH as (g & w & its & vs & o1 & o' & tags & v & HIg & REST). exists g, w, its, vs, o1, o', tags, v. split; [right; auto|auto].
        + destruct IH as (-> & HR & HN & HIp & HRE). split; auto. split.
          { destruct HR as [->|(HR & g & w & o1 & v & HIg & REST)]; auto. right. split; auto. exists g, w, o1, v. split; [right; auto|auto]. }
          split. { intros g w o1 v [E1|HIg] HK HF; [injection E1 as <- <-|eauto]. unfold field_takes in HF. rewrite EK in HF. lia. }
          split; [auto|]. destruct HRE as [(-> & HRE)|(g & w & HIg & HK & ->)].
          -- left. split; auto. intros g w [E1|HIg]; [injection E1 as <- <-; auto|eauto].
          -- right. exists g, w. split; [right; auto|auto].
      - destruct (only_nil t Gt Rt (child_kind _ _ _ _ _ _ _ T HI1 Rt (or_introl EK'))) as (tags & ->).
        remember (v1_ipt (S n) (skipn offs msg) js) as X eqn:EX. rewrite vrec_eq in E. rewrite Nat.leb_refl in E. cbn [List.length Z.of_nat Z.opp ebind] in E. cbn [vhit] in E. change (Z.eqb 0 0) with true in E. cbn [ebind] in E. injection E as <-.
        destruct (ipt_pairs_total (skipn offs msg)) as (kvs & HP).
        exists f, (VNode [] true tags [] []), [], [], n, n, tags, (JObj kvs). split; [left; auto|]. split; [reflexivity|]. split; [change (@nil vitem) with (lit []); constructor|]. split; [auto|].
        split; [unfold field_takes; rewrite EK; split; [lia|]; split; [reflexivity|]; eauto|]. split; [constructor|]. split; [auto|].
        cbn [store_all]. unfold store_one. rewrite EK, EX. apply v1_ipt_pairs; [exact HP|]. rewrite skipn_length. lia. }
    assert (NI : vf_kind f <> KIptables) by (intros X; rewrite X in EK; discriminate EK).
    assert (HFT : forall o1 v, field_takes msg runf f offs o1 v <-> runf f offs = Ok (o1, v)) by (intros; unfold field_takes; rewrite EK; tauto).
    destruct (vkind_eqb (vf_kind f) KRest) eqn:ER.
    + apply vkind_eqb_true in ER. specialize (IH _ _ _ _ _ Hr E). destruct st as [js' en'|r' js' en' rest'].
      * destruct IH as (g & w & its & vs & o1 & o' & tags & v & HIg & REST). exists g, w, its, vs, o1, o', tags, v. split; [right; auto|auto].
      * destruct IH as (-> & HR & HN & HIp & HRE). split; auto. split.
        { destruct HR as [->|(HR & g & w & o1 & v & HIg & REST)]; auto. right. split; auto. exists g, w, o1, v. split; [right; auto|auto]. }
        split. { intros g w o1 v [E1|HIg] HK; [injection E1 as <- <-; congruence|eauto]. }
        split; [intros g w [E1|HIg] HK; [injection E1 as <- <-; congruence|eauto]|].
        right. destruct HRE as [(-> & HRE)|(g & w & HIg & HK & ->)].
        -- exists f, t. split; [left; auto|auto].
        -- exists g, w. split; [right; auto|auto].
    + assert (NR : vf_kind f <> KRest) by (intros EE; rewrite EE in ER; discriminate).
      destruct (runf f offs) as [[nxt v]|b|] eqn:EF.
      * destruct (vrec t nxt js en) as [[[lft js1] en1]|] eqn:EV; [|discriminate]. cbn [ebind] in E.
        destruct (S1 Gt Tt _ _ _ _ _ _ EV) as [(its & vs & o' & tags & -> & -> & HR & HT & Hn & ->)|(-> & HN & HH & HRe & HB)].
        -- cbn [vhit] in E. change (Z.eqb 0 0) with true in E. cbn in E. injection E as <-.
           exists f, t, its, vs, nxt, o', tags, v. split; [left; auto|]. split; [reflexivity|]. split; [auto|]. split; [auto|]. split; [apply HFT; auto|]. split; [auto|]. split; [auto|]. cbn [store_all]. unfold store_one. rewrite EK. reflexivity.
        -- rewrite HH in E. cbn [ebind] in E.
           set (r1 := if (Z.ltb 0 lft && Z.ltb lft r)%bool then lft else r) in *.
           assert (Hr1 : r1 = r \/ ((0 < r1 < r)%Z /\ reaches t nxt r1)).
           { unfold r1. destruct (Z.ltb_spec 0 lft) as [X|X]; cbn [andb]; auto. destruct (Z.ltb_spec lft r) as [Y|Y]; auto. }
           assert (0 <= r1)%Z by lia.
           specialize (IH _ _ _ _ _ H E). destruct st as [js' en'|r' js' en' rest'].
           ++ destruct IH as (g & w & its & vs & o1 & o' & tags & v' & HIg & REST). exists g, w, its, vs, o1, o', tags, v'. split; [right; auto|auto].
           ++ destruct IH as (-> & HR & HN' & HIp & HRE). split; auto. split.
              { destruct HR as [->|(HR & g & w & o1 & v' & HIg & REST)].
                - destruct Hr1 as [->|(X & Y)]; auto. right. split; auto. exists f, t, nxt, v. split; [left; auto|]. split; [auto|]. split; [apply HFT; auto|auto].
                - right. split; [lia|]. exists g, w, o1, v'. split; [right; auto|auto]. }
              split. { intros g w o1 v' [E1|HIg] HK; [injection E1 as <- <-; rewrite HFT; intros [= <- <-]; auto|eauto]. }
              split; [intros g w [E1|HIg] HK; [injection E1 as <- <-; congruence|eauto]|].
              destruct HRE as [(-> & HRE)|(g & w & HIg & HK & ->)].
              ** left. split; auto. intros g w [E1|HIg]; [injection E1 as <- <-; auto|eauto].
              ** right. exists g, w. split; [right; auto|auto].
      * specialize (IH _ _ _ _ _ Hr E). destruct st as [js' en'|r' js' en' rest'].
        -- destruct IH as (g & w & its & vs & o1 & o' & tags & v & HIg & REST). exists g, w, its, vs, o1, o', tags, v. split; [right; auto|auto].
        -- destruct IH as (-> & HR & HN' & HIp & HRE). split; auto. split.
           { destruct HR as [->|(HR & g & w & o1 & v' & HIg & REST)]; auto. right. split; auto. exists g, w, o1, v'. split; [right; auto|auto]. }
           split. { intros g w o1 v' [E1|HIg] HK; [injection E1 as <- <-; rewrite HFT; discriminate|eauto]. }
           split; [intros g w [E1|HIg] HK; [injection E1 as <- <-; congruence|eauto]|].
           destruct HRE as [(-> & HRE)|(g & w & HIg & HK & ->)].
           ++ left. split; auto. intros g w [E1|HIg]; [injection E1 as <- <-; auto|eauto].
           ++ right. exists g, w. split; [right; auto|auto].
      * discriminate.
Qed.

Lemma lloop_spec c offs : forall ls r js en r' js' en', NoDup (map fst ls) ->
  Forall (fun x => good e (snd x) /\ ruled (snd x)) ls -> Forall (fun x => tame_tree (snd x)) ls ->
  Forall (fun x => spec (snd x)) ls -> (0 < r)%Z ->
  lloop c offs ls r js en = EOk (r', js', en') ->
  (~ In c (map fst ls) /\ r' = r /\ js' = js) \/
  exists t, In (c, t) ls /\
   ((exists its vs o' tags, r' = 0%Z /\ en' = Some (true, tags) /\ has_rule t its tags /\ takes msg runf (S n) its (S offs) o' vs /\ n <= o' /\ js' = store_all vs js)
    \/ (js' = js /\ nomatch t (S offs) /\ vhit r' en' = EOk false /\ (r' = r \/ (r' < r)%Z /\ reaches t (S offs) r'))).
Proof.
  induction ls as [|[c' t] ls IH]; intros r js en r' js' en' ND FG FT FS Hr E.
  - injection E as <- <- <-. left. split; [intros []|auto].
  - cbn [map fst] in ND. apply NoDup_cons_iff in ND. destruct ND as (NI & ND).
    apply Forall_cons_iff in FG. destruct FG as ((Gt & Rt) & FG). apply Forall_cons_iff in FS. destruct FS as (S1 & FS).
    apply Forall_cons_iff in FT. destruct FT as (Tt & FT). cbn [fst snd] in *.
    cbn [lloop] in E. destruct (ceq c c') eqn:EC.
    + apply ceq_true in EC. subst c'. right. exists t. split; [left; auto|].
      destruct (vrec t (S offs) js en) as [[[lft js1] en1]|] eqn:EV; [|discriminate]. cbn [ebind] in E. injection E as <- <- <-.
      destruct (S1 Gt Tt _ _ _ _ _ _ EV) as [(its & vs & o' & tags & -> & -> & HR & HT & Hn & ->)|(-> & HN & HH & HRe & HB)].
      * left. destruct (Z.ltb_spec 0 r); [|lia]. exists its, vs, o', tags. auto 10.
      * right. split; auto. split; auto. destruct (Z.ltb_spec lft r).
        -- split; auto.
        -- split; auto. unfold vhit. destruct (Z.eqb_spec r 0); [lia|reflexivity].
    + destruct (IH _ _ _ _ _ _ ND FG FT FS Hr E) as [(N & -> & ->)|(t2 & HI & REST)].
      * left. split; auto. intros [H|H]; auto. cbn [fst] in H. subst c'. rewrite ceq_refl in EC. discriminate.
      * right. exists t2. split; [right; auto|exact REST].
Qed.

Lemma takes_prefix_reach lim q o : firstn (List.length q) (skipn o msg) = q -> takes msg runf lim (lit q) o (o + List.length q) [].
Proof. intros H. rewrite <- (app_nil_r (lit q)). apply takes_lit. split; auto. constructor. Qed.

Theorem vrec_spec : forall t, spec t.
Proof.
  induction t as [p tm tg fs ls IHf IHl] using vtree_ind'. intros G T offs js en r js' en' E.
  rewrite vrec_eq in E. destruct (Nat.leb_spec n offs) as [HO|HO].
  - injection E as <- <- <-. destruct p as [|c p].
    + destruct tm.
      * left. exists [], [], offs, tg. repeat split; auto. { change (@nil vitem) with (lit []). constructor. } constructor.
      * right. split; auto. split.
        { intros its tags o' vs HR HT Hn. apply takes_end in HT; auto. subst its. apply hr_iff in HR.
          destruct HR as (r' & Er & [(_ & X & _)|[(f & t & r2 & -> & _)|(c2 & t & r2 & -> & _)]]); discriminate. }
        split; auto. split; [|cbn; lia].
        intros (r0 & tags & HR). exists [], r0, tags, offs, []. split; auto. split; [constructor|]. left. cbn. split; [lia|auto].
    + right. split; auto. split.
      { intros its tags o' vs HR HT Hn. apply takes_end in HT; auto. subst its. apply hr_iff in HR.
        destruct HR as (r' & Er & _). discriminate. }
      split. { unfold vhit. destruct (Z.eqb_spec (- Z.of_nat (List.length (c :: p))) 0) as [X|X]; [cbn in X; lia|reflexivity]. }
      split; [|lia]. intros (r0 & tags & HR). exists [], r0, tags, offs, []. split; auto. split; [constructor|]. left. split; [lia|auto].
  - cbv zeta in E. destruct (cpl_spec p (skipn offs msg)) as (q & p2 & u2 & Ep & Eu & Ec & D). rewrite Ec in E.
    assert (Lu : List.length (skipn offs msg) = n - offs) by apply skipn_length.
    destruct (Nat.ltb_spec (List.length q) (List.length p)) as [HL|HL].
    + (* the prefix does not match *)
      assert (HP2 : p2 <> []). { intros ->. rewrite app_nil_r in Ep. subst q. lia. }
      assert (NM : nomatch (VNode p tm tg fs ls) offs).
      { intros its tags o' vs HR HT Hn. apply hr_iff in HR. destruct HR as (r0 & -> & _). apply takes_lit in HT. destruct HT as (HT & _).
        rewrite Eu, Ep, app_length in HT. rewrite firstn_app, firstn_all2 in HT by lia. apply app_inv_head in HT.
        replace (List.length q + List.length p2 - List.length q) with (List.length p2) in HT by lia.
        destruct p2 as [|a p2]; [congruence|]. destruct u2 as [|b u2]; [discriminate|]. cbn in HT. injection HT as -> _.
        destruct D as [D|[D|D]]; try discriminate. exact (D a a p2 u2 eq_refl eq_refl eq_refl). }
      assert (TQ : takes msg runf (S n) (lit q) offs (offs + List.length q) []).
      { apply takes_prefix_reach. rewrite Eu. apply firstn_pre. }
      assert (LQ : List.length q + List.length u2 = n - offs) by (rewrite <- Lu, Eu, app_length; reflexivity).
      assert (RE : forall r1, ((r1 <= 0)%Z /\ n <= offs + List.length q \/ (0 < r1)%Z /\ (Z.of_nat (offs + List.length q) + r1 = Z.of_nat n)%Z) ->
         ruled (VNode p tm tg fs ls) -> reaches (VNode p tm tg fs ls) offs r1).
      { intros r1 H (r0 & tags & HR). apply hr_iff in HR as HR'. destruct HR' as (r2 & -> & _). rewrite Ep, lit_app, <- app_assoc in HR.
        exists (lit q), (lit p2 ++ r2), tags, (offs + List.length q), []. rewrite Ep. auto. }
      destruct (Nat.ltb_spec (List.length q) (List.length (skipn offs msg))) as [HL2|HL2]; injection E as <- <- <-; right; (split; [reflexivity|]); (split; [exact NM|]).
      * split. { unfold vhit. destruct (Z.eqb_spec (Z.of_nat (List.length (skipn offs msg) - List.length q)) 0); [lia|reflexivity]. }
        split; [|lia]. apply RE. right. lia.
      * split. { unfold vhit. destruct (Z.eqb_spec (Z.of_nat (List.length q) - Z.of_nat (List.length p)) 0); [lia|reflexivity]. }
        split; [|lia]. apply RE. left. lia.
    + assert (HP2 : p2 = []). { rewrite Ep, app_length in HL. destruct p2; [auto|cbn in HL; lia]. }
      subst p2. rewrite app_nil_r in Ep. subst q. clear D HL.
      assert (LP : offs + List.length p <= n) by (pose proof Eu as X; apply (f_equal (@List.length _)) in X; rewrite app_length in X; lia).
      set (o := offs + List.length p) in *.
      assert (HPre : firstn (List.length p) (skipn offs msg) = p) by (rewrite Eu; apply firstn_pre).
      assert (TP : forall lim its o' vs, takes msg runf lim (lit p ++ its) offs o' vs <-> takes msg runf lim its o o' vs).
      { intros. rewrite takes_lit. fold o. tauto. }
      destruct (floop o fs (Z.of_nat (n - o)) js en None) as [st|] eqn:EL; [|discriminate]. cbn [ebind] in E.
      pose proof (floop_spec p tm tg ls o LP fs fs (incl_refl _) G T IHf _ _ _ _ _ (Zle_0_nat _) EL) as FL.
      destruct st as [js1 en1|r1 js1 en1 rest].
      * destruct FL as (f & t & its & vs & o1 & o' & tags & v & HI & -> & HR & HK & HF & HT & Hn & ->). injection E as <- <- <-.
        left. exists (lit p ++ VF f :: its), ((f, v) :: vs), o', tags. split; auto. split; auto. split; [eapply vp_field; eauto|].
        split; [|auto]. apply TP. econstructor; eauto. lia.
      * destruct FL as (-> & HR1 & HNf & HIpt & HRE).
        destruct (nth_error msg o) as [c|] eqn:EN.
        2:{ (* the message ends here *)
          apply nth_error_None in EN. injection E as <- <- <-. destruct tm.
          - left. exists (lit p), [], o, tg. split; auto. split; auto. split; [constructor|]. split; [|auto].
            rewrite <- (app_nil_r (lit p)). apply TP. constructor.
          - right. split; auto. split.
            { intros its tags o' vs HR HT Hn. apply hr_iff in HR. destruct HR as (r0 & -> & HR). apply TP in HT. apply takes_end in HT; auto. subst r0.
              destruct HR as [(_ & X & _)|[(f & t & r2 & X & _)|(c2 & t & r2 & X & _)]]; discriminate. }
            split; auto. split; [|lia]. intros (r0 & tags & HR). apply hr_iff in HR as HR'. destruct HR' as (r2 & -> & _).
            exists (lit p), r2, tags, o, []. split; auto. split; [apply takes_prefix_reach; auto|]. left. lia. }
        assert (HO2 : o < n) by (apply nth_error_Some; congruence).
        destruct (lloop c o ls r1 js en1) as [[[r2 js2] en2]|] eqn:ELL; [|discriminate]. cbn [ebind] in E.
        inversion G as [p0 tm0 tg0 fs0 ls0 ND1 ND2 HV HGf HGl]; subst p0 tm0 tg0 fs0 ls0.
        assert (HTl : Forall (fun x => tame_tree (snd x)) ls).
        { apply Forall_forall. intros [c' t] HI. cbn [snd]. eapply child_tame_l; eauto. }
        assert (Hr1 : (0 < r1)%Z) by (destruct HR1 as [->|(X & _)]; lia).
        pose proof (lloop_spec c o ls r1 js en1 r2 js2 en2 ND2 HGl HTl IHl Hr1 ELL) as HLL.
        assert (HREACH : forall r, r = r1 \/ (r < r1)%Z /\ (exists t, In (c, t) ls /\ reaches t (S o) r) -> ruled (VNode p tm tg fs ls) -> reaches (VNode p tm tg fs ls) offs r).
        { intros r0 [->|(_ & t & HI & (its1 & its2 & tags & o' & vs & HR & HT & HX))] (x & tags0 & HRX).
          - destruct HR1 as [->|(_ & f & t & o1 & v & HI & HK & HF & (its1 & its2 & tags & o' & vs & HR & HT & HX))].
            + apply hr_iff in HRX as HR'. destruct HR' as (r0 & -> & _). exists (lit p), r0, tags0, o, []. split; auto.
              split; [apply takes_prefix_reach; auto|]. right. lia.
            + exists (lit p ++ VF f :: its1), its2, tags, o', ((f, v) :: vs). split.
              * rewrite <- app_assoc. cbn. eapply vp_field; eauto.
              * split; auto. apply TP. econstructor; eauto; lia.
          - exists (lit p ++ VC c :: its1), its2, tags, o', vs. split.
            + rewrite <- app_assoc. cbn. eapply vp_lit; eauto.
            + split; auto. apply TP. econstructor; eauto. }
        assert (HNIPT : lastipt fs = false).
        { unfold lastipt. destruct (rev fs) as [|[f t] fr] eqn:ER; auto. destruct (vkind_eqb _ _) eqn:EK; auto. exfalso. apply vkind_eqb_true in EK.
          assert (HI : In (f, t) fs) by (apply in_rev; rewrite ER; left; auto).
          specialize (HIpt f t HI EK). lia. }
        assert (RESTP : forall f t en0 r3 js3 en3, In (f, t) fs -> vf_kind f = KRest ->
           (do* (lft, js, en) := vrec t n js en0 in
                  if (asserts_on e && negb (Z.eqb lft 0 && match en with Some (b, _) => b | None => false end))%bool
                  then EUb AssertFail
                  else EOk (0%Z, vstore f (JStr (cstr (skipn (if lastipt fs then n else o) msg))) js, en)) = EOk (r3, js3, en3) ->
            outcome (VNode p tm tg fs ls) offs js r3 js3 en3).
        { intros f t en0 r3 js3 en3 HI HK EE.
          pose proof (proj1 (Forall_forall _ _) HGf (f, t) HI) as (GT & RT). cbn [snd] in GT, RT.
          destruct (only_nil t GT RT (child_kind _ _ _ _ _ _ _ T HI RT (or_intror HK))) as (tags & ->).
          rewrite vrec_eq in EE. rewrite Nat.leb_refl in EE. cbn [ebind List.length Z.of_nat Z.opp] in EE.
          change (Z.eqb 0 0) with true in EE. cbn [andb negb] in EE. rewrite andb_false_r in EE.
          rewrite HNIPT in EE. injection EE as <- <- <-.
          left. exists (lit p ++ [VF f]), [(f, JStr (cstr (skipn o msg)))], n, tags. split; auto. split; auto.
          split. { eapply vp_field; [exact HI|]. change (@nil vitem) with (lit []). constructor. }
          split; [apply TP; apply tk_rest; auto|]. split; [auto|]. cbn [store_all]. unfold store_one. rewrite HK. reflexivity. }
        assert (NMN : (forall t, In (c, t) ls -> nomatch t (S o)) -> rest = None -> nomatch (VNode p tm tg fs ls) offs).
        { intros HLN ER its tags o' vs HR HT Hn. apply hr_iff in HR. destruct HR as (r0 & -> & HR). apply TP in HT.
          destruct HR as [(-> & _)|[(f & t & r3 & -> & HI & HR)|(c2 & t & r3 & -> & HI & HR)]].
          - inversion HT; subst. lia.
          - inversion HT; subst.
            + eapply HNf; eauto.
            + destruct HRE as [(_ & HRE)|(g & w & _ & _ & X)]; [eapply HRE; eauto|congruence].
          - inversion HT as [|c0 its0 o0 o0' vs0 H2 H5| |]; subst. assert (c2 = c) as -> by (unfold o in *; congruence). eapply HLN; eauto. }
        destruct HLL as [(NI & -> & ->)|(t & HI & [(its & vs & o' & tags & -> & -> & HR & HT & Hn & ->)|(-> & HN & HH & HRL)])].
        -- assert (HV0 : vhit r1 en2 = EOk false) by (unfold vhit; destruct (Z.eqb_spec r1 0); [lia|reflexivity]).
           rewrite HV0 in E. cbn [ebind] in E. destruct HRE as [(-> & HRE)|(g & w & HIg & HK & ->)].
           ++ injection E as <- <- <-. right. split; auto. split.
              { apply NMN; auto. intros t HI. exfalso. apply NI. apply in_map_iff. exists (c, t). auto. }
              split; auto. split; [apply HREACH; auto|]. destruct HR1 as [->|(X & _)]; lia.
           ++ eapply RESTP; eauto.
        -- cbn [vhit] in E. change (Z.eqb 0 0) with true in E. cbn [ebind] in E. injection E as <- <- <-.
           left. exists (lit p ++ VC c :: its), vs, o', tags. split; auto. split; auto. split; [eapply vp_lit; eauto|]. split; [|auto].
           apply TP. econstructor; eauto.
        -- rewrite HH in E. cbn [ebind] in E. destruct HRE as [(-> & HRE)|(g & w & HIg & HK & ->)].
           ++ injection E as <- <- <-. right. split; auto. split.
              { apply NMN; auto. intros t' HI'. rewrite (nodup_fst _ _ _ _ ND2 HI' HI). exact HN. }
              split; auto. split; [apply HREACH; destruct HRL as [->|(X & Y)]; [auto|right; split; eauto]|].
              assert (r1 <= Z.of_nat n)%Z by (destruct HR1 as [->|(X & _)]; lia). destruct HRL as [->|(X & Y)]; lia.
           ++ eapply RESTP; eauto.
Qed.
End M.
