(** * OneOpt: optimizing keeps chains. *)
From Verif Require Import Base Time Parsers Engine Pdag Samp EngineSpec EngineSpec2 GraphSpec RuleSpec BuiltSpec OneSpec BaseFacts FieldFacts EngineFacts EngineFacts2 EngineFacts3 EngineGen HeapFacts BuildFacts BuildFacts2 BuildFacts3 RuleFacts TreeFacts OptSem OneFacts OneEngine OneLoad.
From Coq Require Import ZifyBool ZifyNat ZifyN Permutation.

Lemma lin_path h i ps en : lin h i ps en -> path h i ps en.
Proof. induction 1; [constructor|]. econstructor; eauto. rewrite H0. left. auto. Qed.
Lemma lin_ends h i ps en : lin h i ps en -> ends h i en.
Proof. induction 1; [eapply ends_here; eauto|eapply ends_next; eauto]. Qed.
Lemma lin_last h i ps en : lin h i ps en -> exists n, live h en n /\ n_term n = true.
Proof. induction 1; eauto. Qed.
Lemma lin_reach h : forall i ps en, lin h i ps en -> forall qs j, path h i qs j -> exists ps2, lin h j ps2 en.
Proof.
  induction 1 as [i n A B C|i n p ps en A B C D IH]; intros qs j HP; inversion HP as [|i0 n0 q qs0 j0 Hn Hq HP']; subst.
  - exists []. eapply lin_end; eauto.
  - assert (n0 = n) by (eapply live_fun; eauto). subst n0. rewrite B in Hq. destruct Hq.
  - exists (p :: ps). eapply lin_step; eauto.
  - assert (n0 = n) by (eapply live_fun; eauto). subst n0. rewrite B in Hq. destruct Hq as [<-|[]]. eauto.
Qed.

Definition inner_targets (k : kind) : list nat := match k with KRepeat a b _ => [a; b] | _ => [] end.
Section Opt.
Variables (h h' : list (option node)) (ts : list (text * nat)).
Hypothesis HO : orel False h h'.
Hypothesis Hcl : forall i n p t, live h' i n -> In p (n_parsers n) -> In t (targets p) -> exists m, live h' t m.

Definition tl (k : kind) : Prop := forall t, In t (inner_targets k) -> exists m, live h' t m.
Definition da (a : atom) (x : rfield * option text) : Prop :=
  match a with
  | AChar c => c <> NUL /\ x = C1 c
  | AField k nm => snd x = nm /\ (tl k -> den h' ts k (fst x)) /\ chop x = [x]
  end.
Definition chained (i : nat) (l : rfields) : Prop := exists ps en, lin h i ps en /\ Forall2 da (atoms (labels ps)) l.

Lemma same_parsers i n' : live h' i n' -> exists n, live h i n /\ n_term n' = n_term n /\ List.length (n_parsers n') = List.length (n_parsers n).
Proof.
  intros H. destruct (o_live _ _ _ HO _ _ H) as (n & A & B & _ & _ & _ & P & _). exists n. split; auto. split; auto.
  apply Permutation_length in P. rewrite !map_length in P. exact P.
Qed.

Lemma walk_opt en : forall ps' i l b n, path h' i ps' b -> live h' b n -> n_term n = true -> (exists m, live h' i m) -> Forall2 da (atoms (labels ps')) l ->
  (forall qs j, path h' i qs j -> exists ps2, lin h j ps2 en) -> rep h' ts i l /\ ends h' i b.
Proof.
  induction ps' as [|p ps' IH]; intros i l b n HP Hb Ht [m Hm] HF HR.
  - inversion HP; subst. inversion HF; subst. assert (m = n) by (eapply live_fun; eauto). subst m.
    destruct (HR [] b (path_nil _ _)) as (ps2 & HL). destruct (same_parsers _ _ Hb) as (n0 & A & B & C).
    assert (EP : n_parsers n = []). { inversion HL as [i1 n1 X Y Z|i1 n1 p1 ps1 en1 X Y Z W]; subst; assert (n1 = n0) by (eapply live_fun; eauto); subst n1; [|congruence]. rewrite Y in C. destruct (n_parsers n); [auto|discriminate]. }
    split; [eapply rep_end; eauto|eapply ends_here; eauto].
  - inversion HP as [|i0 n0 q qs0 j0 Hn Hq HP']; subst. assert (n0 = m) by (eapply live_fun; eauto). subst n0.
    destruct (HR [] i (path_nil _ _)) as (ps2 & HL). destruct (same_parsers _ _ Hm) as (n0 & A & B & C).
    assert (EP : n_parsers m = [p] /\ n_term m = false). { inversion HL as [i1 n1 X Y Z|i1 n1 p1 ps1 en1 X Y Z W]; subst; assert (n1 = n0) by (eapply live_fun; eauto); subst n1; rewrite Y in C.
      - destruct (n_parsers m); [destruct Hq|discriminate]. - destruct (n_parsers m) as [|x [|y z]]; try discriminate. destruct Hq as [->|[]]. split; auto. congruence. }
    destruct EP as [EP Et]. rewrite atoms_cons in HF. apply Forall2_app_inv_l in HF as (l1 & l2 & F1 & F2 & ->).
    destruct (IH (p_child p) l2 b n HP' Hb Ht) as [R E]; auto.
    { eapply Hcl; eauto. unfold targets. left. auto. }
    { intros qs j Hqs. apply (HR (p :: qs)). econstructor; eauto. }
    split; [|eapply ends_next; eauto].
    destruct (atoms_of_field (p_kind p) (p_name p)) as [(t & Ek & En)|Ea].
    + assert (El : l1 = map C1 t /\ ~ In NUL t).
      { rewrite Ek, En in F1. cbn [atoms_of] in F1. clear -F1. revert l1 F1. induction t as [|c t IHt]; intros l1 F1; inversion F1 as [|? ? ? ? H1 H2]; subst; [split; auto|]. destruct H1 as [Hc ->]. destruct (IHt _ H2) as [-> HN]. split; [reflexivity|]. intros [->|Hin]; auto. }
      destruct El as [-> HN]. replace (map C1 t) with (chop (RPlain (MLiteral t), p_name p)) by (rewrite En; reflexivity). eapply rep_step; eauto. rewrite Ek. apply den_simple. exact HN.
    + rewrite Ea in F1. inversion F1 as [|? [f nm] ? ? H1 H2]; subst. inversion H2; subst. destruct H1 as (E1 & E2 & E3). cbn [fst snd] in *. subst nm.
      rewrite <- E3. eapply rep_step; eauto. apply E2. intros t Htt. eapply Hcl; eauto. unfold targets. right. destruct (p_kind p); auto.
Qed.
Lemma chained_rep i l n : chained i l -> live h' i n -> rep h' ts i l.
Proof.
  intros (ps & en & HL & HF) Hi. destruct (lin_last _ _ _ _ HL) as (m & Hm & Ht).
  assert (HH : hr h i (atoms (labels ps)) (n_tags m, n_file m, n_line m)). { exists ps, en, m. split; [apply lin_path; auto|]. auto. }
  apply (o_hr _ _ _ HO _ _ Hi) in HH. destruct HH as (ps' & b & n' & P & Lb & Tb & _ & EA). rewrite <- EA in HF.
  eapply walk_opt; eauto. intros qs j Hq. destruct (o_path _ _ _ HO _ _ _ _ Hi Hq) as [qs' Hq']. eapply lin_reach; eauto.
Qed.
Lemma ends_opt i ps en n m : lin h i ps en -> live h en m -> live h' i n -> exists en' m', ends h' i en' /\ live h' en' m' /\ n_tags m' = n_tags m.
Proof.
  intros HL Hm Hi. assert (Ht : n_term m = true). { destruct (lin_last _ _ _ _ HL) as (m0 & Hm0 & Ht). assert (m0 = m) by (eapply live_fun; eauto). subst m0. auto. }
  assert (HH : hr h i (atoms (labels ps)) (n_tags m, n_file m, n_line m)). { exists ps, en, m. split; [apply lin_path; auto|]. auto. }
  apply (o_hr _ _ _ HO _ _ Hi) in HH. destruct HH as (ps' & b & n' & P & Lb & Tb & EI & EA).
  assert (E : ends h' i b); [|exists b, n'; split; auto; split; auto; congruence].
  assert (HR : forall qs j, path h' i qs j -> exists ps2, lin h j ps2 en). { intros qs j Hq. destruct (o_path _ _ _ HO _ _ _ _ Hi Hq) as [qs' Hq']. eapply lin_reach; eauto. }
  clear -HO HR P Lb Tb Hi. revert n Hi HR. induction P as [i|i n0 p ps j Hn Hp HP IH]; intros n Hi HR.
  - assert (n = n') by (eapply live_fun; eauto). subst n. destruct (HR [] i (path_nil _ _)) as (ps2 & HL). destruct (same_parsers _ _ Hi) as (n0 & A & B & C).
    eapply ends_here; eauto. inversion HL as [i1 n1 X Y Z|i1 n1 p1 ps1 en1 X Y Z W]; subst; assert (n1 = n0) by (eapply live_fun; eauto); subst n1; [|congruence]. rewrite Y in C. destruct (n_parsers n'); [auto|discriminate].
  - assert (n0 = n) by (eapply live_fun; eauto). subst n0. destruct (HR [] i (path_nil _ _)) as (ps2 & HL). destruct (same_parsers _ _ Hi) as (n0 & A & B & C).
    assert (EP : n_parsers n = [p]). { inversion HL as [i1 n1 X Y Z|i1 n1 p1 ps1 en1 X Y Z W]; subst; assert (n1 = n0) by (eapply live_fun; eauto); subst n1; rewrite Y in C.
      - destruct (n_parsers n); [destruct Hp|discriminate]. - destruct (n_parsers n) as [|x [|y z]]; try discriminate. destruct Hp as [->|[]]. auto. }
    assert (HC : exists m0, live h' (p_child p) m0). { inversion HP; subst; eauto. }
    destruct HC as [m0 Hm0]. eapply ends_next; eauto. apply (IH Lb m0 Hm0). intros qs j0 Hq. apply (HR (p :: qs)). econstructor; eauto.
Qed.
Lemma inner_opt i n : inner_ok h i -> live h' i n -> inner_ok h' i.
Proof.
  intros (m & p & Hm & Hp) Hi. destruct (same_parsers _ _ Hi) as (n0 & A & B & C). assert (n0 = m) by (eapply live_fun; eauto). subst n0. rewrite Hp in C.
  destruct (n_parsers n) as [|x [|y z]] eqn:E; try discriminate. exists n, x. auto.
Qed.

Lemma opt_all : (forall i l, rep h ts i l -> chained i l) /\ (forall k f, den h ts k f -> tl k -> den h' ts k f).
Proof.
  set (Q := fun k f => tl k -> den h' ts k f).
  assert (R1 : forall i n, live h i n -> n_parsers n = [] -> n_term n = true -> chained i []).
  { intros i n A B C. exists [], i. split; [eapply lin_end; eauto|constructor]. }
  assert (R2 : forall i n p f l, live h i n -> n_parsers n = [p] -> n_term n = false -> den h ts (p_kind p) f -> Q (p_kind p) f -> rep h ts (p_child p) l -> chained (p_child p) l -> chained i (chop (f, p_name p) ++ l)).
  { intros i n p f l A B C D0 D _ (ps & en & L1 & F1). exists (p :: ps), en. split; [eapply lin_step; eauto|]. rewrite atoms_cons. apply Forall2_app; auto.
    destruct (atoms_of_field (p_kind p) (p_name p)) as [(t & Ek & En)|Ea].
    - rewrite Ek, En in *. inversion D0 as [m Hm E1 E2| |]; subst. cbn [atoms_of chop]. cbn in Hm. clear -Hm. induction t as [|c t IHt]; cbn [map]; constructor; [split; auto; intros ->; apply Hm; left; auto|]. apply IHt. intros Hin. apply Hm. right. exact Hin.
    - rewrite Ea. assert (EC : chop (f, p_name p) = [(f, p_name p)]). { destruct (chop_cases f (p_name p)) as [(t & -> & En & _)|E]; auto. inversion D0 as [m Hm E1 E2| |]; subst. rewrite En, <- E1 in Ea. cbn [atoms_of] in Ea. destruct t as [|c [|c2 t]]; discriminate. }
      rewrite EC. constructor; [|constructor]. cbn. auto. }
  assert (R3 : forall m, lits_ok (RPlain m) -> Q (KSimple m) (RPlain m)) by (intros m Hm _; apply den_simple; auto).
  assert (R4 : forall ti T tn, nth_error ts ti = Some (T, tn) -> Q (KCustom ti) (RType T)) by (intros ti T tn Hn _; eapply den_custom; eauto).
  assert (R5 : forall pn wn permit ps ws, inner_ok h pn -> inner_ok h wn -> Forall (fun f => lits_ok (fst f)) ps -> Forall (fun f => lits_ok (fst f)) ws ->
    rep h ts pn (norm ps) -> chained pn (norm ps) -> rep h ts wn (norm ws) -> chained wn (norm ws) -> Q (KRepeat pn wn permit) (RRepeat ps ws permit)).
  { intros pn wn permit ps ws I1 I2 F1 F2 _ C1 _ C2 HT. destruct (HT pn ltac:(left; auto)) as [m1 Hm1]. destruct (HT wn ltac:(right; left; auto)) as [m2 Hm2].
    apply den_repeat; auto; try (eapply inner_opt; eauto; fail); eapply chained_rep; eauto. }
  split; [apply (rep_mut h ts chained Q); auto|apply (den_mut h ts chained Q); auto].
Qed.
Lemma rep_opt i l n : rep h ts i l -> live h' i n -> rep h' ts i l.
Proof. intros H Hn. eapply chained_rep; [apply opt_all; exact H|exact Hn]. Qed.
End Opt.
