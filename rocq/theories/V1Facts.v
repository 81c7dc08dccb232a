(** * V1Facts: adding a rule to a v1 parse tree. *)
From Verif Require Import Base BaseFacts Parsers Engine EngineFacts2 Samp SynFacts V1 V1Spec.

Lemma vtree_ind' (P : vtree -> Prop)
  (H : forall p tm tg fs ls, Forall (fun x => P (snd x)) fs -> Forall (fun x => P (snd x)) ls ->
       P (VNode p tm tg fs ls)) : forall t, P t.
Proof.
  fix IH 1. intros [p tm tg fs ls]. apply H.
  - induction fs as [|[f t] fs IHf]; constructor; [apply IH | exact IHf].
  - induction ls as [|[c t] ls IHl]; constructor; [apply IH | exact IHl].
Qed.

Definition pfx (t : vtree) : text := match t with VNode p _ _ _ _ => p end.

(** Rules of a node, counted from the end of its prefix. *)
Definition below (t : vtree) (r : list vitem) (tg : option json) : Prop := has_rule t (lit (pfx t) ++ r) tg.

Lemma lit_app a b : lit (a ++ b) = lit a ++ lit b.
Proof. apply map_app. Qed.

Lemma lit_inj a b : lit a = lit b -> a = b.
Proof. revert b; induction a as [|x a IH]; intros [|y b]; cbn; intros; try discriminate; auto.
  injection H as -> H. f_equal; auto. Qed.

(** ** What a node holds *)
Lemma hr_iff p tm tg fs ls x tags : has_rule (VNode p tm tg fs ls) x tags <->
  exists r, x = lit p ++ r /\
  ((r = [] /\ tm = true /\ tg = tags)
   \/ (exists f t r', r = VF f :: r' /\ In (f, t) fs /\ has_rule t r' tags)
   \/ (exists c t r', r = VC c :: r' /\ In (c, t) ls /\ has_rule t r' tags)).
Proof.
  unfold has_rule; split.
  - intros H; inversion H; subst.
    + exists []. rewrite app_nil_r. auto.
    + eexists; split; [reflexivity|]. right; left. eauto 10.
    + eexists; split; [reflexivity|]. right; right. eauto 10.
  - intros (r & -> & [(-> & -> & ->)|[(f & t & r' & -> & HI & HT)|(c & t & r' & -> & HI & HT)]]).
    + rewrite app_nil_r. constructor.
    + econstructor; eauto.
    + eapply vp_lit; eauto.
Qed.

Lemma below_iff p tm tg fs ls r tags : below (VNode p tm tg fs ls) r tags <->
  ((r = [] /\ tm = true /\ tg = tags)
   \/ (exists f t r', r = VF f :: r' /\ In (f, t) fs /\ has_rule t r' tags)
   \/ (exists c t r', r = VC c :: r' /\ In (c, t) ls /\ has_rule t r' tags)).
Proof.
  unfold below; cbn [pfx]. rewrite hr_iff. split.
  - intros (r' & E & H). apply app_inv_head in E. subst. exact H.
  - intros H. exists r. auto.
Qed.

Lemma hr_pfx t x tags : has_rule t x tags <-> exists r, x = lit (pfx t) ++ r /\ below t r tags.
Proof.
  destruct t as [p tm tg fs ls]. rewrite hr_iff. cbn [pfx].
  split; intros (r & -> & H); exists r; (split; [reflexivity|]); [apply below_iff | apply below_iff in H]; exact H.
Qed.

Section Good.
Variable e : env.

Definition vf_ok (f : vfield) : Prop := vf_data f = option_map (unescape e) (vf_raw f).

(** Branches are distinct, and behind every branch there is a rule. *)
Inductive good : vtree -> Prop :=
| good_node p tm tg fs ls :
    NoDup (map fst fs) -> NoDup (map fst ls) ->
    Forall (fun x => vf_ok (fst x)) fs ->
    Forall (fun x => good (snd x) /\ exists r tags, has_rule (snd x) r tags) fs ->
    Forall (fun x => good (snd x) /\ exists r tags, has_rule (snd x) r tags) ls ->
    good (VNode p tm tg fs ls).

Lemma good_new p : good (VNode p false None [] []).
Proof. constructor; constructor. Qed.

Lemma good_pfx p p' tm tg tm' tg' fs ls : good (VNode p tm tg fs ls) -> good (VNode p' tm' tg' fs ls).
Proof. intros H; inversion H; subst. constructor; auto. Qed.

(** ** Common prefix *)
Lemma cpl_spec a b : exists q a' b', a = q ++ a' /\ b = q ++ b' /\ cpl a b = List.length q /\
  (a' = [] \/ b' = [] \/ (forall x y u v, a' = x :: u -> b' = y :: v -> x <> y)).
Proof.
  revert b; induction a as [|x a IH]; intros [|y b]; cbn.
  - exists [], [], []. auto 6.
  - exists [], [], (y :: b). auto 6.
  - exists [], (x :: a), []. auto 6.
  - destruct (ceq x y) eqn:E.
    + apply ceq_true in E. subst y. destruct (IH b) as (q & a' & b' & -> & -> & -> & H).
      exists (x :: q), a', b'. cbn. auto 6.
    + exists [], (x :: a), (y :: b). cbn. repeat split; auto. right; right.
      intros ? ? ? ? [= -> ->] [= -> ->] ->. rewrite ceq_refl in E. discriminate.
Qed.

Lemma skipn_pre {A} (q a : list A) : skipn (List.length q) (q ++ a) = a.
Proof. induction q; cbn; auto. Qed.
Lemma firstn_pre {A} (q a : list A) : firstn (List.length q) (q ++ a) = q.
Proof. induction q; cbn; f_equal; auto. Qed.

Lemma setPrefix_all s : (N.of_nat (List.length s) < 65536)%N -> setPrefix s (List.length s) = s.
Proof.
  intros H. unfold setPrefix, short. rewrite N.mod_small by exact H. rewrite Nnat.Nat2N.id. apply firstn_all.
Qed.

Lemma nodup_fst {A B} (l : list (A * B)) a b b' : NoDup (map fst l) -> In (a, b) l -> In (a, b') l -> b = b'.
Proof.
  induction l as [|[x y] l IH]; cbn; [tauto|]. intros ND. inversion ND; subst.
  intros [E|H] [E'|H'].
  - congruence.
  - injection E as -> ->. exfalso. apply H1. apply in_map_iff. exists (a, b'). auto.
  - injection E' as -> ->. exfalso. apply H1. apply in_map_iff. exists (a, b). auto.
  - auto.
Qed.

(** ** Literals *)

(** [t'] is [t] after node [u] behind literal [s] was replaced by [u']. *)
Definition replaced (t : vtree) (s : text) (u u' t' : vtree) : Prop :=
  (forall r tags, below u r tags <-> has_rule t (lit s ++ r) tags) /\
  (forall x tags, has_rule t' x tags <->
     (exists r, x = lit s ++ r /\ below u' r tags) \/
     ((forall r, x <> lit s ++ r) /\ has_rule t x tags)).

Lemma NoDup_app_single {A} (l : list A) a : NoDup l -> ~ In a l -> NoDup (l ++ [a]).
Proof.
  induction l as [|x l IH]; cbn; intros ND NI; [constructor; [intros []|constructor]|].
  inversion ND; subst. constructor.
  - rewrite in_app_iff. intros [H|[H|[]]]; auto.
  - apply IH; auto.
Qed.

Lemma lit_app_cons_neq x y s r r' : x <> y -> lit (x :: s) ++ r <> VC y :: r'.
Proof. cbn. congruence. Qed.

Lemma split_rules q c p' tm tg fs ls x tags :
  has_rule (VNode q false None [] [(c, VNode p' tm tg fs ls)]) x tags <->
  has_rule (VNode (q ++ c :: p') tm tg fs ls) x tags.
Proof.
  rewrite !hr_iff. split.
  - intros (r & -> & [(_ & E & _)|[(f & t & r' & _ & [] & _)|(c' & t & r' & -> & [E|[]] & HR)]]); [discriminate|].
    injection E as <- <-. apply hr_iff in HR. destruct HR as (r2 & -> & HR).
    exists r2. split; auto. rewrite lit_app. cbn. rewrite <- app_assoc. reflexivity.
  - intros (r & -> & HR). exists (VC c :: lit p' ++ r). split.
    + rewrite lit_app. cbn. rewrite <- app_assoc. reflexivity.
    + right; right. exists c, (VNode p' tm tg fs ls), (lit p' ++ r). split; auto. split; [left; auto|].
      apply hr_iff. exists r. auto.
Qed.

Lemma split_rules2 q c p' tm tg fs ls ch d x tags :
  has_rule (VNode q false None [] [(c, VNode p' tm tg fs ls); (d, ch)]) x tags <->
  has_rule (VNode (q ++ c :: p') tm tg fs ls) x tags \/
  (exists r, x = lit q ++ VC d :: r /\ has_rule ch r tags).
Proof.
  rewrite <- split_rules. rewrite !hr_iff. split.
  - intros (r & -> & [(_ & E & _)|[(f & t & r' & _ & [] & _)|(c' & t & r' & -> & [E|[E|[]]] & HR)]]); [discriminate| |].
    + left. exists (VC c' :: r'). split; auto. right; right. exists c', t, r'. split; auto. split; auto. left; auto.
    + injection E as -> ->. right. eauto.
  - intros [(r & -> & [(_ & E & _)|[(f & t & r' & _ & [] & _)|(c' & t & r' & -> & [E|[]] & HR)]])|(r & -> & HR)]; [discriminate| |].
    + exists (VC c' :: r'). split; auto. right; right. exists c', t, r'. split; auto. split; auto. left; auto.
    + exists (VC d :: r). split; auto. right; right. exists d, ch, r. split; auto. split; auto. right; left; auto.
Qed.

Lemma pref_dec (s : text) (x : list vitem) : (exists r, x = lit s ++ r) \/ (forall r, x <> lit s ++ r).
Proof.
  revert x; induction s as [|c s IH]; intros x.
  - left. exists x. reflexivity.
  - destruct x as [|[d|f] x]; [right; intros r; discriminate| |right; intros r; discriminate].
    destruct (Ascii.ascii_dec c d) as [->|NE]; [|right; intros r E; cbn in E; congruence].
    destruct (IH x) as [(r & ->)|N]; [left; exists r; reflexivity|].
    right; intros r E. cbn in E. injection E as E. exact (N r E).
Qed.

Section Build.
Variable R : vtree -> vtree -> Prop.
Variable k : vtree -> er vtree.
Variable full : text.
Hypothesis Hlen : (N.of_nat (List.length full) < 65536)%N.
Hypothesis Hk : forall u, good u -> exists u', k u = EOk u' /\ pfx u' = pfx u /\ good u' /\
  (exists r tags, below u' r tags) /\ R u u'.

Lemma new_child s' : good (VNode s' false None [] []) /\ forall r tags, ~ below (VNode s' false None [] []) r tags.
Proof.
  split; [apply good_new|]. intros r tags H. apply below_iff in H.
  destruct H as [(_ & E & _)|[(f & t & r' & _ & [] & _)|(c & t & r' & _ & [] & _)]]. discriminate.
Qed.

Lemma build_ok : forall t s, good t -> (exists a, full = a ++ s) ->
  ((isTrueLeaf t = true /\ s = full) \/ exists r tags, has_rule t r tags) ->
  exists t' u u', build k full t s = EOk t' /\ good t' /\ (exists r tags, has_rule t' r tags) /\
    good u /\ R u u' /\ replaced t s u u' t'.
Proof.
  induction t as [p tm tg fs ls _ IHl] using vtree_ind'. intros s G (a0 & Ef) TL.
  assert (HS : (N.of_nat (List.length s) < 65536)%N).
  { rewrite Ef, app_length in Hlen. lia. }
  cbn [build].
  destruct (cpl_spec s p) as (q & s2 & p2 & Es & Ep & Ec & D).
  rewrite Ec.
  assert (E1 : skipn (List.length q) s = s2) by (rewrite Es; apply skipn_pre).
  assert (E2 : skipn (List.length q) p = p2) by (rewrite Ep; apply skipn_pre).
  assert (E3 : firstn (List.length q) p = q) by (rewrite Ep; apply firstn_pre).
  rewrite E1, E2, E3. clear E1 E2 E3 Ec.
  destruct s2 as [|c s']; destruct p2 as [|pc p'].
  - (* case 1.1 *)
    rewrite app_nil_r in Es, Ep. subst q. subst p.
    destruct (Hk _ G) as (u' & -> & Ep' & G' & (r0 & tg0 & HB) & HR).
    exists u', (VNode s tm tg fs ls), u'. split; auto. split; auto. split.
    { exists (lit s ++ r0), tg0. apply hr_pfx. rewrite Ep'. cbn. eauto. }
    split; auto. split; auto. split.
    + intros r tags. unfold below. cbn [pfx]. reflexivity.
    + intros x tags. rewrite hr_pfx, Ep'. cbn [pfx]. split; [auto|].
      intros [H|(N & H)]; auto. apply hr_pfx in H. destruct H as (r & -> & _). exfalso. exact (N r eq_refl).
  - (* case 1.2 *)
    rewrite app_nil_r in Es. subst q.
    assert (G1 : good (VNode s false None [] [(pc, VNode p' tm tg fs ls)])).
    { apply good_node; try (constructor; fail).
      - constructor; [intros []|constructor].
      - constructor; [|constructor]. cbn [snd]. split; [eapply good_pfx; eauto|].
        destruct TL as [(TL & _)|(r & tags & H)].
        + subst p. destruct s; discriminate TL.
        + subst p. apply hr_iff in H. destruct H as (r' & -> & H). exists (lit p' ++ r'), tags.
          apply hr_iff. eauto. }
    destruct (Hk _ G1) as (u' & -> & Ep' & G' & (r0 & tg0 & HB) & HR).
    exists u'. eexists. exists u'. split; [reflexivity|]. split; auto. split.
    { exists (lit s ++ r0), tg0. apply hr_pfx. rewrite Ep'. cbn. eauto. }
    split; [exact G1|]. split; auto. split.
    + intros r tags. unfold below. cbn [pfx]. rewrite split_rules, <- Ep. reflexivity.
    + intros x tags. rewrite hr_pfx, Ep'. cbn [pfx]. split; [auto|].
      intros [H|(N & H)]; auto. subst p. apply hr_iff in H. destruct H as (r & -> & _).
      exfalso. apply (N (lit (pc :: p') ++ r)). rewrite lit_app, <- app_assoc. reflexivity.
  - (* case 3 *)
    rewrite app_nil_r in Ep. subst q. rename p into q.
    set (go := fix go (l : list (ascii * vtree)) : er (option (list (ascii * vtree))) :=
             match l with
             | [] => EOk None
             | (c', t') :: l' =>
                 if ceq c c' then do* t'' := build k full t' s' in EOk (Some ((c', t'') :: l'))
                 else do* r := go l' in EOk (option_map (cons (c', t')) r)
             end).
    assert (GG : NoDup (map fst fs) /\ NoDup (map fst ls) /\ Forall (fun x => vf_ok (fst x)) fs /\
      Forall (fun x => good (snd x) /\ exists r tags, has_rule (snd x) r tags) fs /\
      Forall (fun x => good (snd x) /\ exists r tags, has_rule (snd x) r tags) ls)
      by (clear - G; inversion G; auto).
    destruct GG as (ND1 & ND2 & HV & HF & HL).
    assert (HGO : forall l, NoDup (map fst l) ->
      Forall (fun x => good (snd x) /\ exists r tags, has_rule (snd x) r tags) l ->
      Forall (fun x => forall s, good (snd x) -> (exists a, full = a ++ s) ->
          ((isTrueLeaf (snd x) = true /\ s = full) \/ exists r tags, has_rule (snd x) r tags) ->
          exists t' u u', build k full (snd x) s = EOk t' /\ good t' /\ (exists r tags, has_rule t' r tags) /\
            good u /\ R u u' /\ replaced (snd x) s u u' t') l ->
      (go l = EOk None /\ ~ In c (map fst l)) \/
      exists l1 t1 l2 t1' u u', l = l1 ++ (c, t1) :: l2 /\ ~ In c (map fst l1) /\ ~ In c (map fst l2) /\
        go l = EOk (Some (l1 ++ (c, t1') :: l2)) /\ good t1' /\ (exists r tags, has_rule t1' r tags) /\
            good u /\ R u u' /\ replaced t1 s' u u' t1').
    { induction l as [|[c' t1] l IH]; intros ND FG FI.
      - left. split; [reflexivity|]. intros [].
      - cbn [map fst] in ND. apply NoDup_cons_iff in ND. destruct ND as (H1 & H2).
        apply Forall_cons_iff in FG. destruct FG as ((Gt & Rt) & FG').
        apply Forall_cons_iff in FI. destruct FI as (It & FI'). cbn [go]. fold go. cbn [snd] in *.
        destruct (ceq c c') eqn:EC.
        + apply ceq_true in EC. subst c'. right.
          destruct (It s' Gt) as (t' & u & u' & HB & G' & HR' & Gu & HRu & Rep).
          { exists (a0 ++ q ++ [c]). rewrite Ef, Es, <- !app_assoc. reflexivity. }
          { auto. }
          rewrite HB. cbn [ebind]. exists [], t1, l, t', u, u'. cbn. repeat (split; auto).
        + assert (c <> c') by (intros ->; rewrite ceq_refl in EC; discriminate).
          destruct (IH H2 FG' FI') as [(EG & NI)|(l1 & t2 & l2 & t2' & u & u' & -> & N1 & N2 & EG & REST)].
          * left. rewrite EG. cbn. split; auto. intros [E|E]; auto.
          * right. rewrite EG. cbn [ebind option_map].
            exists ((c', t1) :: l1), t2, l2, t2', u, u'. cbn. split; auto. split; [intros [E|E]; auto|].
            split; auto. }
    destruct (HGO ls ND2 HL IHl) as [(EG & NI)|(l1 & t1 & l2 & t1' & u & u' & El & N1 & N2 & EG & G1 & HR1 & Gu & HRu & (Rep1 & Rep2))].
    + (* case 3.1 *)
      rewrite EG. cbn [ebind].
      destruct (isTrueLeaf (VNode q tm tg fs ls)) eqn:LF.
      * (* empty node: it takes the literal *)
        destruct q; [|discriminate LF]. destruct fs; [|discriminate LF]. destruct ls; [|discriminate LF].
        destruct tm; [discriminate LF|]. clear LF.
        destruct TL as [(_ & Esf)|(r & tags & H)].
        2:{ exfalso. apply hr_iff in H. destruct H as (r' & _ & [(_ & E & _)|[(f & t & r2 & _ & [] & _)|(c2 & t & r2 & _ & [] & _)]]). discriminate. }
        cbn [app] in Es.
        assert (Hs : setPrefix full (List.length (c :: s')) = s).
        { rewrite <- Es. rewrite Esf at 1. rewrite <- Esf. apply setPrefix_all. exact HS. }
        rewrite Hs.
        assert (G1 : good (VNode s false tg [] [])) by (constructor; constructor).
        destruct (Hk _ G1) as (u' & -> & Ep' & G' & (r0 & tg0 & HB) & HR).
        exists u'. eexists. exists u'. split; [reflexivity|]. split; auto. split.
        { exists (lit s ++ r0), tg0. apply hr_pfx. rewrite Ep'. cbn. eauto. }
        split; [exact G1|]. split; auto. split.
        -- intros r tags. split; intros H; exfalso.
           ++ apply below_iff in H. destruct H as [(_ & E & _)|[(f & t & r2 & _ & [] & _)|(c2 & t & r2 & _ & [] & _)]]. discriminate.
           ++ apply hr_iff in H. destruct H as (r' & _ & [(_ & E & _)|[(f & t & r2 & _ & [] & _)|(c2 & t & r2 & _ & [] & _)]]). discriminate.
        -- intros x tags. rewrite hr_pfx, Ep'. cbn [pfx]. split; [auto|].
           intros [H|(N & H)]; auto. exfalso.
           apply hr_iff in H. destruct H as (r' & _ & [(_ & E & _)|[(f & t & r2 & _ & [] & _)|(c2 & t & r2 & _ & [] & _)]]). discriminate.
      * (* new branch *)
        rewrite setPrefix_all by (rewrite Es, app_length in HS; cbn [List.length] in HS; lia).
        destruct (new_child s') as (GN & NB).
        destruct (Hk _ GN) as (u' & -> & Ep' & G' & (r0 & tg0 & HB) & HR). cbn [ebind pfx] in *.
        assert (HU : exists r tags, has_rule u' r tags).
        { exists (lit s' ++ r0), tg0. apply hr_pfx. rewrite Ep'. eauto. }
        assert (HIN : forall x tags, has_rule (VNode q tm tg fs (ls ++ [(c, u')])) x tags <->
           has_rule (VNode q tm tg fs ls) x tags \/ exists r, x = lit q ++ VC c :: r /\ has_rule u' r tags).
        { intros x tags. rewrite !hr_iff. split.
          - intros (r & -> & [H|[H|(c' & t & r' & -> & HI & HT)]]).
            + left; eauto. + left; eauto.
            + apply in_app_iff in HI. destruct HI as [HI|[E|[]]].
              * left. exists (VC c' :: r'). split; auto. right; right. exists c', t, r'. auto.
              * injection E as -> ->. right. eauto.
          - intros [(r & -> & [H|[H|(c' & t & r' & -> & HI & HT)]])|(r & -> & HT)].
            + eauto. + eauto.
            + exists (VC c' :: r'). split; auto. right; right. exists c', t, r'. rewrite in_app_iff. auto.
            + exists (VC c :: r). split; auto. right; right. exists c, u', r. rewrite in_app_iff. cbn. auto 6. }
        exists (VNode q tm tg fs (ls ++ [(c, u')])), (VNode s' false None [] []), u'. split; [reflexivity|].
        split.
        { constructor; auto.
          - rewrite map_app. cbn. apply NoDup_app_single; auto.
          - apply Forall_app. split; auto. }
        split. { destruct HU as (r & tags & HU). exists (lit q ++ VC c :: r), tags. apply HIN. right; eauto. }
        split; auto. split; auto. split.
        -- intros r tags. split; intros H; exfalso; [exact (NB _ _ H)|].
           apply hr_iff in H. destruct H as (r' & E & H). rewrite Es, lit_app, <- app_assoc in E.
           apply app_inv_head in E. subst r'. cbn in H.
           destruct H as [(E & _)|[(f & t & r2 & E & _)|(c2 & t & r2 & E & HI & _)]]; try discriminate.
           injection E as <- _. apply NI. apply in_map_iff. exists (c, t). auto.
        -- intros x tags. rewrite HIN. split.
           ++ intros [H|(r & -> & H)].
              ** destruct (pref_dec s x) as [(r & ->)|N]; [|right; auto]. exfalso.
                 apply hr_iff in H. destruct H as (r' & E & H). rewrite Es, lit_app, <- app_assoc in E.
                 apply app_inv_head in E. subst r'. cbn in H.
                 destruct H as [(E & _)|[(f & t & r2 & E & _)|(c2 & t & r2 & E & HI & _)]]; try discriminate.
                 injection E as <- _. apply NI. apply in_map_iff. exists (c, t). auto.
              ** left. apply hr_pfx in H. destruct H as (r' & -> & H). exists r'. split; auto.
                 rewrite Es, lit_app, Ep'. cbn. rewrite <- app_assoc. reflexivity.
           ++ intros [(r & -> & H)|(N & H)]; [|auto]. right.
              exists (lit s' ++ r). split; [rewrite Es, lit_app, <- app_assoc; reflexivity|].
              apply hr_pfx. rewrite Ep'. eauto.
    + (* case 3.2 *)
      rewrite EG. cbn [ebind]. subst ls.
      assert (HIN : forall x tags t2, has_rule (VNode q tm tg fs (l1 ++ (c, t2) :: l2)) x tags <->
           has_rule (VNode q tm tg fs (l1 ++ l2)) x tags \/ exists r, x = lit q ++ VC c :: r /\ has_rule t2 r tags).
      { intros x tags t2. rewrite !hr_iff. split.
          - intros (r & -> & [H|[H|(c' & t & r' & -> & HI & HT)]]).
            + left; eauto. + left; eauto.
            + apply in_app_iff in HI. destruct HI as [HI|[E|HI]].
              * left. exists (VC c' :: r'). split; auto. right; right. exists c', t, r'. rewrite in_app_iff. auto.
              * injection E as -> ->. right. eauto.
              * left. exists (VC c' :: r'). split; auto. right; right. exists c', t, r'. rewrite in_app_iff. auto.
          - intros [(r & -> & [H|[H|(c' & t & r' & -> & HI & HT)]])|(r & -> & HT)].
            + eauto. + eauto.
            + exists (VC c' :: r'). split; auto. right; right. exists c', t, r'. rewrite in_app_iff in *. cbn. intuition.
            + exists (VC c :: r). split; auto. right; right. exists c, t2, r. rewrite in_app_iff. cbn. auto 6. }
      assert (NOT : forall x tags r, has_rule (VNode q tm tg fs (l1 ++ l2)) x tags -> x <> lit q ++ VC c :: r).
      { intros x tags r H ->. apply hr_iff in H. destruct H as (r' & E & H). apply app_inv_head in E. subst r'.
        destruct H as [(E & _)|[(f & t & r2 & E & _)|(c2 & t & r2 & E & HI & _)]]; try discriminate.
        injection E as <- _. apply in_app_iff in HI. destruct HI as [HI|HI]; [apply N1|apply N2]; apply in_map_iff; exists (c, t); auto. }
      exists (VNode q tm tg fs (l1 ++ (c, t1') :: l2)), u, u'. split; [reflexivity|].
      split.
      { constructor; auto.
        - rewrite map_app in *. cbn in *. exact ND2.
        - apply Forall_app in HL. destruct HL as (HL1 & HL2). apply Forall_cons_iff in HL2. destruct HL2 as (_ & HL2).
          apply Forall_app. split; auto. }
      split. { destruct HR1 as (r & tags & H). exists (lit q ++ VC c :: r), tags. apply HIN. right; eauto. }
      split; auto. split; auto. split.
      * intros r tags. rewrite Rep1. rewrite HIN. rewrite Es, lit_app, <- app_assoc. cbn [lit map app]. split.
        -- intros H. right. eauto.
        -- intros [H|(r' & E & H)]; [exfalso; exact (NOT _ _ _ H eq_refl)|].
           apply app_inv_head in E. injection E as <-. exact H.
      * intros x tags. rewrite !HIN. rewrite Es, lit_app. split.
        -- intros [H|(r & -> & H)].
           ++ right. split; auto. intros r Ex. rewrite <- app_assoc in Ex. exact (NOT _ _ _ H Ex).
           ++ apply Rep2 in H. destruct H as [(r' & -> & H)|(N & H)].
              ** left. exists r'. split; auto. rewrite <- app_assoc. reflexivity.
              ** right. split; [|right; eauto]. intros r' E. rewrite <- app_assoc in E.
                 apply app_inv_head in E. cbn in E. injection E as E. exact (N r' E).
        -- intros [(r & -> & H)|(N & [H|(r & -> & H)])].
           ++ right. exists (lit s' ++ r). split; [rewrite <- app_assoc; reflexivity|]. apply Rep2. left; eauto.
           ++ left; exact H.
           ++ right. exists r. split; auto. apply Rep2. right. split; auto. intros r' ->.
              apply (N r'). rewrite <- app_assoc. reflexivity.
  - (* case 2 *)
    destruct D as [D|[D|D]]; try discriminate. specialize (D c pc s' p' eq_refl eq_refl).
    rewrite setPrefix_all by (rewrite Es, app_length in HS; cbn [List.length] in HS; lia).
    destruct (new_child s') as (GN & NB).
    destruct (Hk _ GN) as (u' & -> & Ep' & G' & (r0 & tg0 & HB) & HR). cbn [ebind pfx] in *.
    assert (HU : exists r tags, has_rule u' r tags).
    { exists (lit s' ++ r0), tg0. apply hr_pfx. rewrite Ep'. eauto. }
    assert (HT : exists r tags, has_rule (VNode p' tm tg fs ls) r tags).
    { destruct TL as [(TL & _)|(r & tags & H)].
      - subst p. destruct q; discriminate TL.
      - subst p. apply hr_iff in H. destruct H as (r' & -> & H). exists (lit p' ++ r'), tags.
        apply hr_iff. eauto. }
    exists (VNode q false None [] [(pc, VNode p' tm tg fs ls); (c, u')]), (VNode s' false None [] []), u'.
    split; [reflexivity|]. split.
    { apply good_node; try (constructor; fail).
      - constructor; [intros [E|[]]; cbn in E; congruence|]. constructor; [intros []|constructor].
      - constructor; [|constructor; [|constructor]]; cbn [snd].
        + split; auto. eapply good_pfx; eauto.
        + auto. }
    split. { destruct HU as (r & tags & HU). exists (lit q ++ VC c :: r), tags. apply split_rules2. right; eauto. }
    split; auto. split; auto. split.
    + intros r tags. split; intros H; exfalso; [exact (NB _ _ H)|].
      subst p. apply hr_iff in H. destruct H as (r' & E & _). rewrite Es, !lit_app, <- !app_assoc in E.
      apply app_inv_head in E. cbn in E. congruence.
    + intros x tags. rewrite split_rules2, <- Ep. split.
      * intros [H|(r & -> & H)].
        -- right. split; auto. intros r ->. subst p. apply hr_iff in H. destruct H as (r' & E & _).
           rewrite Es, !lit_app, <- !app_assoc in E. apply app_inv_head in E. cbn in E. congruence.
        -- left. apply hr_pfx in H. destruct H as (r' & -> & H). exists r'. split; auto.
           rewrite Es, lit_app, Ep'. cbn. rewrite <- app_assoc. reflexivity.
      * intros [(r & -> & H)|(N & H)]; [|auto]. right.
        exists (lit s' ++ r). split; [rewrite Es, lit_app, <- app_assoc; reflexivity|].
        apply hr_pfx. rewrite Ep'. eauto.
Qed.
End Build.
End Good.
