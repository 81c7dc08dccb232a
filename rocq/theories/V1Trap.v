(** * V1Trap: facts for C95. *)
From Verif Require Import Base BaseFacts Parsers Engine Pdag Samp LineSpec AnnotSpec AnnotFacts RuleSpec SynSpec SynFacts V1 V1Spec V1Facts V1Add V1Load V1TrapSpec TrapSpec TrapLoad.
Local Open Scope list_scope.

Lemma li_spelled w : literal_text w <-> exists l, spelled w l.
Proof.
  split.
  - induction 1 as [|c w Hc H [l IH]|w H [l IH]]; eexists; [constructor|constructor; eauto|apply sp_pct; eauto].
  - intros [l H]. induction H; [constructor|constructor; auto|apply li_percent; auto].
Qed.

Lemma rtrim_split t : exists b, t = rtrim t ++ b /\ spaces b.
Proof.
  induction t as [|c t (b & E & Hb)]; [exists []; split; [reflexivity|constructor]|]. cbn [rtrim]. destruct (rtrim t) as [|d r] eqn:ER.
  - cbn [app] in E. subst t. destruct (isspace c) eqn:Ec; [exists (c :: b); split; [reflexivity|constructor; auto]|exists b; split; [reflexivity|auto]].
  - exists b. split; [|auto]. cbn [app]. f_equal. exact E.
Qed.
Lemma vtype_in : forall l ty kd, vtype_find l ty = Some kd -> exists n, In (n, kd) l /\ ty = L n.
Proof.
  induction l as [|[n k] l IH]; intros ty kd H; [discriminate|]. cbn [vtype_find] in H. destruct (text_eqb ty (L n)) eqn:E.
  - injection H as <-. apply text_eqb_true in E. exists n. split; [left; reflexivity|exact E].
  - destruct (IH _ _ H) as (m & Hm & Em). exists m. split; [right; exact Hm|exact Em].
Qed.
Lemma without_true c (s : text) : Forall (fun x => negb (ceq x c) = true) s <-> ~ In c s.
Proof.
  rewrite Forall_forall. split.
  - intros H Hi. specialize (H _ Hi). rewrite ceq_refl in H. discriminate.
  - intros H x Hx. destruct (ceq x c) eqn:E; [|reflexivity]. apply ceq_true in E. subst x. contradiction.
Qed.

Lemma app_inv_len {A} (a b c d : list A) : a ++ c = b ++ d -> List.length a = List.length b -> a = b /\ c = d.
Proof. revert b. induction a as [|x a IH]; intros [|y b] E HL; try discriminate; [auto|]. injection E as <- E. injection HL as HL. destruct (IH _ E HL) as [-> ->]. auto. Qed.

Section Rule.
Variable e : env.

Lemma descr_whole ft r : whole_field ft -> exists fd, vfieldDescr e (ft ++ r) = Ok (fd, r).
Proof.
  assert (HT : forall b2, spaces b2 -> Forall (fun c => negb (ceq c ":" || ceq c "%") = true) b2).
  { intros b2 H. eapply Forall_impl; [|exact H]. cbn. intros c Hc. destruct (ceq c ":") eqn:E1.
    - apply ceq_true in E1 as ->. discriminate. - destruct (ceq c "%") eqn:E2; auto. apply ceq_true in E2 as ->. discriminate. }
  assert (HP : forall b1 name ty kd b2 X, spaces b1 -> field_name name -> In (ty, kd) vtypes -> spaces b2 -> (forall c r, X = c :: r -> negb (ceq c ":" || ceq c "%") = false) ->
     vfieldDescr e (b1 ++ name ++ ":"%char :: L ty ++ b2 ++ X) =
      match X with
          | [] => Bad 0
          | c :: u =>
                  if ceq c "%" then
                    Ok ({| vf_name := name; vf_kind := kd; vf_data := None; vf_raw := None |}, u)
                  else
                    let d := scan (fun c => negb (ceq c "%")) u in
                    Ok ({| vf_name := name; vf_kind := kd;
                           vf_data := Some (unescape e (firstn d u));
                           vf_raw := Some (firstn d u) |}, skipn (S d) u)
          end).
  { intros b1 name ty kd b2 X Hb1 (Hn & Hc & Hs) HI Hb2 HX.
    pose proof (proj1 (Forall_forall _ _) vtypes_names _ HI) as (T1 & T2 & T3). cbn [fst snd] in T1, T2, T3.
    unfold vfieldDescr.
    rewrite (scan_app isspace b1).
    2:exact Hb1. 2:{ intros c r0 E. destruct name; [congruence|]. injection E as <- _. exact Hs. }
    rewrite skipn_lapp.
    rewrite (scan_app (fun c => negb (ceq c ":")) name); [|apply without_true; exact Hc|intros c r0 [= <- _]; reflexivity].
    rewrite firstn_pre, skipn_lapp.
    destruct name as [|n0 name]; [congruence|].
    rewrite app_assoc.
    rewrite (scan_app (fun c => negb (ceq c ":" || ceq c "%")) (L ty ++ b2)) by (try exact HX; apply Forall_app; auto).
    rewrite firstn_pre, skipn_lapp, rtrim_app by auto.
    rewrite T3. destruct X; reflexivity. }
  destruct 1 as [b1 name ty kd b2 Hb1 Hn HI Hb2|b1 name ty kd b2 x Hb1 Hn HI Hb2 Hx].
  - eexists. replace ((b1 ++ name ++ ":"%char :: L ty ++ b2 ++ ["%"%char]) ++ r)%list with (b1 ++ name ++ ":"%char :: L ty ++ b2 ++ ("%"%char :: r))%list
      by (rewrite <- !app_assoc; cbn [app]; rewrite <- !app_assoc; reflexivity).
    rewrite (HP b1 name ty kd b2) by (auto; intros c r0 [= <- _]; reflexivity). reflexivity.
  - eexists. replace ((b1 ++ name ++ ":"%char :: L ty ++ b2 ++ ":"%char :: x ++ ["%"%char]) ++ r)%list with (b1 ++ name ++ ":"%char :: L ty ++ b2 ++ (":"%char :: x ++ "%"%char :: r))%list
      by (rewrite <- !app_assoc; cbn [app]; rewrite <- !app_assoc; cbn [app]; rewrite <- !app_assoc; reflexivity).
    rewrite (HP b1 name ty kd b2) by (auto; intros c r0 [= <- _]; reflexivity).
    change (ceq ":" "%") with false. cbv iota. cbv zeta.
    rewrite (scan_app (fun c => negb (ceq c "%")) x); [|apply without_true; exact Hx|intros c r0 [= <- _]; reflexivity].
    rewrite firstn_pre. f_equal. f_equal. clear. induction x; cbn in *; auto.
Qed.

Lemma descr_inv u : match vfieldDescr e u with
  | Ok (_, r) => (exists ft, u = ft ++ r /\ whole_field ft) \/ r = []
  | Ub x => x = UninitRead /\ ends_in_name u
  | Bad _ => ~ ends_in_name u end /\ (ends_in_name u -> vfieldDescr e u = Ub UninitRead).
Proof.
  assert (X : match vfieldDescr e u with
  | Ok (_, r) => ((exists ft, u = ft ++ r /\ whole_field ft) \/ r = []) /\ ~ ends_in_name u
  | Ub x => x = UninitRead /\ ends_in_name u
  | Bad _ => ~ ends_in_name u end).
  2:{ destruct (vfieldDescr e u) as [[? ?]|?|?]; split; try tauto. destruct X as [-> _]. auto. }
  unfold vfieldDescr. destruct (scan_split isspace u) as (b1 & u1 & E0 & Hb1 & Hs & ->).
  assert (EK : skipn (List.length b1) u = u1) by (rewrite E0; apply skipn_lapp). rewrite EK. clear EK.
  destruct (scan_split (fun c => negb (ceq c ":")) u1) as (n & u2 & E2 & Hn & Hc & ->).
  assert (EK : firstn (List.length n) u1 = n) by (rewrite E2; apply firstn_pre). rewrite EK. clear EK.
  assert (EK : skipn (List.length n) u1 = u2) by (rewrite E2; apply skipn_lapp). rewrite EK. clear EK.
  apply without_true in Hn.
  assert (HU : forall b m, u = b ++ m -> spaces b -> field_name m -> u1 = m).
  { intros b m E Hb (M1 & _ & M3). rewrite E0 in E. clear - E Hb Hb1 Hs M1 M3. revert b E Hb. induction b1 as [|x b1 IH]; intros b E Hb; cbn [app] in E.
    - destruct b as [|y b]; [exact E|]. cbn [app] in E. subst u1. inversion Hb as [|? ? Hy _]; subst. rewrite (Hs _ _ eq_refl) in Hy. discriminate.
    - inversion Hb1 as [|? ? Hx Hb1']; subst. destruct b as [|y b]; cbn [app] in E.
      + subst m. cbn in M3. congruence.
      + injection E as <- E. inversion Hb; subst. eapply IH; eauto. }
  destruct n as [|n0 n].
  { intros (b & m & E & Hb & Hm). specialize (HU _ _ E Hb Hm). destruct Hm as (M1 & M2 & M3). cbn [app] in E2. subst u2.
    destruct u1 as [|d u1]; [congruence|]. specialize (Hc _ _ eq_refl). apply negb_false_iff in Hc. apply ceq_true in Hc. subst d. apply M2. rewrite <- HU. left. reflexivity. }
  assert (HF : field_name (n0 :: n)). { split; [discriminate|]. split; [exact Hn|]. cbn [hd]. eapply Hs. exact E2. }
  destruct u2 as [|c u3].
  { split; [reflexivity|]. exists b1, (n0 :: n). split; [rewrite E0, E2, app_nil_r; reflexivity|]. split; [exact Hb1|exact HF]. }
  specialize (Hc _ _ eq_refl). apply negb_false_iff in Hc. apply ceq_true in Hc. subst c.
  assert (HB : ~ ends_in_name u).
  { intros (b & m & E & Hb & Hm). specialize (HU _ _ E Hb Hm). destruct Hm as (M1 & M2 & M3). apply M2. rewrite <- HU, E2. apply in_or_app. right. left. reflexivity. }
  destruct (scan_split (fun c => negb (ceq c ":" || ceq c "%")) u3) as (t & u4 & E3 & Ht & Ht2 & ->).
  assert (EK : firstn (List.length t) u3 = t) by (rewrite E3; apply firstn_pre). rewrite EK. clear EK.
  assert (EK : skipn (List.length t) u3 = u4) by (rewrite E3; apply skipn_lapp). rewrite EK. clear EK.
  destruct u4 as [|c u5]; [exact HB|]. destruct (vtype_find vtypes (rtrim t)) as [kd|] eqn:EV; [|exact HB].
  destruct (vtype_in _ _ _ EV) as (ty & HI & ET). destruct (rtrim_split t) as (b2 & Eb & Hb2). rewrite ET in Eb.
  destruct (ceq c "%") eqn:Ec.
  - apply ceq_true in Ec. subst c. split; [left|exact HB]. exists (b1 ++ (n0 :: n) ++ ":"%char :: L ty ++ b2 ++ ["%"%char]). split; [|econstructor; eauto].
    rewrite E0, E2, E3, Eb. repeat (rewrite <- !app_assoc; cbn [app]). reflexivity.
  - cbv zeta. specialize (Ht2 _ _ eq_refl). apply negb_false_iff in Ht2. rewrite Ec, orb_false_r in Ht2. apply ceq_true in Ht2. subst c.
    split; [|exact HB]. destruct (scan_split (fun c => negb (ceq c "%")) u5) as (x & u6 & E5 & Hx & Hx2 & ->). apply without_true in Hx.
    destruct u6 as [|c u7].
    + right. rewrite E5, app_nil_r. apply skipn_all2. lia.
    + left. specialize (Hx2 _ _ eq_refl). apply negb_false_iff in Hx2. apply ceq_true in Hx2. subst c.
      exists (b1 ++ (n0 :: n) ++ ":"%char :: L ty ++ b2 ++ ":"%char :: x ++ ["%"%char]). split; [|econstructor; eauto].
      replace (skipn (S (List.length x)) u5) with u7 by (rewrite E5; clear; induction x; cbn in *; auto).
      rewrite E0, E2, E3, Eb, E5. repeat (rewrite <- !app_assoc; cbn [app]). reflexivity.
Qed.

(** ** Adding a rule *)
Lemma build_ub k full x : forall t s, (forall t', k t' = EUb x) -> build k full t s = EUb x.
Proof.
  fix IH 1. intros [p tm tg fs ls] s HK. cbn [build]. destruct (skipn (cpl s p) s) as [|c s'], (skipn (cpl s p) p) as [|pc p']; try apply HK.
  - assert (G : forall l, (forall c' t', In (c', t') l -> forall s, build k full t' s = EUb x) -> (fix go (l : list (ascii * vtree)) : er (option (list (ascii * vtree))) :=
             match l with
             | [] => EOk None
             | (c', t') :: l' =>
                 if ceq c c' then do* t'' := build k full t' s' in EOk (Some ((c', t'') :: l'))
                 else do* r := go l' in EOk (option_map (cons (c', t')) r)
             end) l = if existsb (fun y => ceq c (fst y)) l then EUb x else EOk None).
    { induction l as [|[c' t'] l IHl]; intros Hl; [reflexivity|]. cbn [existsb fst]. destruct (ceq c c'); cbn [orb].
      - rewrite (Hl c' t' (or_introl eq_refl)). reflexivity.
      - rewrite IHl by (intros; eapply Hl; right; eauto). destruct (existsb _ l); reflexivity. }
    rewrite G.
    2:{ clear G. induction ls as [|[c1 t1] ls IHl]; intros c' t' H; [destruct H|]. destruct H as [H|H]; [|apply (IHl c' t' H)]. injection H as <- <-. intros s0. apply IH. exact HK. }
    destruct (existsb _ ls); [reflexivity|]. cbn [ebind]. destruct (isTrueLeaf _); [apply HK|]. rewrite HK. reflexivity.
  - rewrite HK. reflexivity.
Qed.
Lemma build_noub k full : forall t s, (forall t', exists t'', k t' = EOk t'') -> exists t'', build k full t s = EOk t''.
Proof.
  fix IH 1. intros [p tm tg fs ls] s HK. cbn [build]. destruct (skipn (cpl s p) s) as [|c s'], (skipn (cpl s p) p) as [|pc p']; try apply HK.
  - assert (G : forall l, (forall c' t', In (c', t') l -> forall s, exists t'', build k full t' s = EOk t'') -> exists r, (fix go (l : list (ascii * vtree)) : er (option (list (ascii * vtree))) :=
             match l with
             | [] => EOk None
             | (c', t') :: l' =>
                 if ceq c c' then do* t'' := build k full t' s' in EOk (Some ((c', t'') :: l'))
                 else do* r := go l' in EOk (option_map (cons (c', t')) r)
             end) l = EOk r).
    { induction l as [|[c' t'] l IHl]; intros Hl; [eexists; reflexivity|]. destruct (ceq c c').
      - destruct (Hl c' t' (or_introl eq_refl) s') as (t'' & ->). eexists. reflexivity.
      - destruct IHl as (r & ->); [intros; eapply Hl; right; eauto|]. eexists. reflexivity. }
    destruct (G ls) as (r & ->).
    { clear G. induction ls as [|[c1 t1] ls IHl]; intros c' t' H; [destruct H|]. destruct H as [H|H]; [|apply (IHl c' t' H)]. injection H as <- <-. intros s0. apply IH. exact HK. }
    cbn [ebind]. destruct r; [eexists; reflexivity|]. destruct (isTrueLeaf _); [apply HK|]. destruct (HK (VNode (setPrefix s' (List.length s')) false None [] [])) as (t'' & ->). eexists. reflexivity.
  - destruct (HK (VNode (setPrefix s' (List.length s')) false None [] [])) as (t'' & ->). eexists. reflexivity.
Qed.
Lemma fdescr_ub k f x : (forall t, k t = EUb x) -> forall fs, addFDescr k f fs = EUb x.
Proof. intros HK. induction fs as [|[g t] fs IH]; cbn [addFDescr]; [rewrite HK; reflexivity|]. destruct (vfield_same g f); [rewrite HK; reflexivity|rewrite IH; reflexivity]. Qed.
Lemma fdescr_noub k f : (forall t, exists t', k t = EOk t') -> forall fs, exists fs', addFDescr k f fs = EOk fs'.
Proof.
  intros HK. induction fs as [|[g t] fs IH]; cbn [addFDescr]; [destruct (HK vnew) as (t & ->); eexists; reflexivity|].
  destruct (vfield_same g f); [destruct (HK t) as (t' & ->); eexists; reflexivity|destruct IH as (r & ->); eexists; reflexivity].
Qed.

Definition breaks (rule : text) : Prop := exists u, opens rule u /\ ends_in_name u.
Lemma opens_inv rule u l rest : opens rule u -> literal_part rule = (l, rest) -> exists v, rest = "%"%char :: v /\ (v = u \/ exists f r, v = f ++ r /\ whole_field f /\ opens r u).
Proof.
  intros [w c u' Hw Hc|w f r u' Hw Hf Hh Ho] E; apply li_spelled in Hw as [m Hm].
  - rewrite (spelled_part _ _ Hm) in E by (right; eauto). injection E as <- <-. eauto.
  - assert (exists c v, f = c :: v /\ c <> "%"%char) as (c & v & Ef & Hc).
    { destruct f as [|c v]; [|exists c, v; auto]. exfalso. inversion Hf as [b1 n ? ? ? ? ? ? ? E0|b1 n ? ? ? ? ? ? ? ? ? E0]; apply app_eq_nil in E0 as [_ E0]; apply app_eq_nil in E0 as [_ E0]; discriminate. }
    rewrite (spelled_part _ _ Hm) in E by (right; exists c, (v ++ r); split; [rewrite Ef; reflexivity|exact Hc]). injection E as <- <-. exists (f ++ r). split; [reflexivity|]. right. eauto.
Qed.
Lemma vadd_exact tags : forall fuel rule t, List.length rule < fuel -> (breaks rule /\ vadd e fuel tags rule t = EUb UninitRead) \/ (~ breaks rule /\ exists t', vadd e fuel tags rule t = EOk t').
Proof.
  induction fuel as [|fuel IH]; intros rule t Hf; [lia|]. destruct rule as [|c0 rule0]; [|remember (c0 :: rule0) as rule eqn:Er].
  { right. split; [|eexists; reflexivity]. intros (u & Ho & _). inversion Ho as [l c u' Hl Hc E0|l f r u' Hl Hw Hh Ho' E0]; destruct l; discriminate E0. }
  destruct (literal_part rule) as [l rest] eqn:EL. assert (Hne : rule <> []) by (rewrite Er; discriminate). rewrite (vadd_eq e fuel tags rule t l rest Hne EL).
  destruct (part_spelled _ rule l rest (le_n _) EL) as (w & Hw & HC).
  assert (Hend : rest = [] -> ~ breaks rule). { intros -> (u & Ho & _). destruct (opens_inv _ _ _ _ Ho EL) as (v & E & _). discriminate. }
  assert (HE : rest = [] \/ exists c v, rest = "%"%char :: c :: v /\ c <> "%"%char /\ rule = w ++ rest) by (destruct HC as [[_ ->]|[[_ ->]|H]]; auto). clear HC.
  destruct HE as [->|(c & v & -> & Hc & Ew)].
  { right. split; [apply Hend; reflexivity|]. apply build_noub. intros t'. eexists. reflexivity. }
  assert (Hwl : literal_text w) by (apply li_spelled; eauto).
  assert (Hb : breaks rule <-> ends_in_name (c :: v) \/ exists f r, c :: v = f ++ r /\ whole_field f /\ breaks r).
  { split.
    - intros (u & Ho & Hu). destruct (opens_inv _ _ _ _ Ho EL) as (v' & E & HD). injection E as <-. destruct HD as [<-|(f & r & E & Hf' & Ho')]; [left; exact Hu|]. right. exists f, r. split; [exact E|]. split; [exact Hf'|]. exists u. auto.
    - intros [H|(f & r & E & Hf' & u & Ho & Hu)].
      + exists (c :: v). split; [|exact H]. rewrite Ew. apply op_here; auto.
      + exists u. split; [|exact Hu]. rewrite Ew, E. apply op_behind; auto. destruct f as [|c' f]; [|cbn in E; injection E as <- _; exact Hc].
        exfalso. inversion Hf' as [b1 n ? ? ? ? ? ? ? E0|b1 n ? ? ? ? ? ? ? ? ? E0]; apply app_eq_nil in E0 as [_ E0]; apply app_eq_nil in E0 as [_ E0]; discriminate. }
  pose proof (descr_inv (c :: v)) as [HD HD2]. destruct (vfieldDescr e (c :: v)) as [[fd r]|b|x] eqn:ED.
  - assert (Hnn : ~ ends_in_name (c :: v)) by (intros H; discriminate (HD2 H)).
    assert (HR : forall t', (breaks r /\ match r with [] => build (fun t'' => EOk (vterminal tags t'')) [] t' [] | _ => vadd e fuel tags r t' end = EUb UninitRead) \/
       (~ breaks r /\ exists t'', match r with [] => build (fun t'' => EOk (vterminal tags t'')) [] t' [] | _ => vadd e fuel tags r t' end = EOk t'')).
    { intros t'. destruct r as [|d r].
      - right. split; [|apply build_noub; intros; eexists; reflexivity]. intros (u & Ho & _). inversion Ho as [l' c' u' Hl Hc' E0|l' f' r' u' Hl Hw' Hh Ho' E0]; destruct l'; discriminate E0.
      - apply IH. destruct HD as [(ft & E & _)|E]; [|discriminate]. apply (f_equal (@List.length _)) in E. apply (f_equal (@List.length _)) in Ew. rewrite !app_length in *. cbn [List.length] in *. lia. }
    assert (Hbr : breaks rule <-> breaks r).
    { rewrite Hb. split.
      - intros [H|(f & r' & E & Hf' & Hr')]; [contradiction|]. destruct (descr_whole f r' Hf') as (fd' & E'). rewrite <- E, ED in E'. injection E' as _ ->. exact Hr'.
      - intros Hr'. right. destruct HD as [(ft & E & Hft)| ->]; [eauto|]. destruct Hr' as (u & Ho & _). inversion Ho as [l' c' u' Hl Hc' E0|l' f' r' u' Hl Hw' Hh Ho' E0]; destruct l'; discriminate E0. }
    destruct (HR t) as [[HB _]|[HB _]].
    + left. split; [apply Hbr; exact HB|]. apply build_ub. intros [p tm tg fs ls]. unfold vcont. rewrite ED. rewrite (fdescr_ub _ fd UninitRead); [reflexivity|].
      intros t'. destruct (HR t') as [[_ E]|[HN _]]; [exact E|contradiction].
    + right. split; [rewrite Hbr; exact HB|]. apply build_noub. intros [p tm tg fs ls]. unfold vcont. rewrite ED.
      match goal with |- context [addFDescr ?k fd fs] => destruct (fdescr_noub k fd) with (fs := fs) as (fs' & E) end.
      { intros t'. destruct (HR t') as [[HN _]|[_ E]]; [contradiction|exact E]. }
      rewrite E. eexists. reflexivity.
  - right. split.
    + rewrite Hb. intros [H|(f & r' & E & Hf' & _)]; [contradiction|]. destruct (descr_whole f r' Hf') as (fd' & E'). rewrite <- E, ED in E'. discriminate.
    + apply build_noub. intros t'. unfold vcont. rewrite ED. eexists. reflexivity.
  - destruct HD as [-> HD]. left. split; [apply Hb; left; exact HD|]. apply build_ub. intros t'. unfold vcont. rewrite ED. reflexivity.
Qed.

(** ** Lines *)
Lemma says_iff l k u : L k <> [] -> ~ In "="%char (L k) -> (line_says l k u <-> getLineType l = Some (L k, u)).
Proof.
  intros Hk He. assert (HS : forall r, r = [] \/ (exists r', r = "="%char :: r') -> scan (fun c => negb (ceq c "=")) (L k ++ r) = List.length (L k)).
  { intros r Hr. apply scan_app; [apply without_true; exact He|]. intros c r0 E. destruct Hr as [->|(r' & ->)]; [discriminate|]. injection E as <- _. reflexivity. }
  split.
  - intros [->|[-> ->]]; unfold getLineType.
    + rewrite HS by eauto. rewrite firstn_pre. replace (skipn (S (List.length (L k))) (L k ++ "="%char :: u)) with u by (clear; induction (L k); cbn in *; auto). destruct (L k); [congruence|reflexivity].
    + specialize (HS [] (or_introl eq_refl)). rewrite app_nil_r in HS. rewrite HS, firstn_all, skipn_all2 by lia. destruct (L k); [congruence|reflexivity].
  - intros H. destruct (lineType_says (fun x => x = l) l (L k) u k H) as [H1|[H1 H2]]; [apply text_eqb_refl|reflexivity|left; symmetry; exact H1|right; auto].
Qed.

(** *** Tags *)
Lemma tags_bad y : forall x cur b, ~ In ":"%char x -> (x = [] /\ cur = None) \/ (exists z, x = z ++ [","%char]) -> processTags (x ++ ","%char :: y) cur b = EUb NullDeref.
Proof.
  induction x as [|c x IH]; intros cur b Hn HX.
  - destruct HX as [[_ ->]|(z & E)]; [reflexivity|destruct z; discriminate].
  - destruct HX as [[E _]|(z & E)]; [discriminate|]. cbn [app processTags]. destruct (ceq c ":") eqn:E1; [apply ceq_true in E1; subst c; destruct Hn; left; reflexivity|].
    assert (Hn' : ~ In ":"%char x) by (intros H; apply Hn; right; exact H).
    destruct (ceq c ",") eqn:E2.
    + destruct cur; [|reflexivity]. apply IH; [exact Hn'|]. destruct z as [|d z]; cbn [app] in E; injection E as _ E; [left; auto|right; eauto].
    + apply IH; [exact Hn'|]. destruct z as [|d z]; cbn [app] in E; injection E as Ec E; [subst c; discriminate|right; eauto].
Qed.
Lemma tags_split u : match processTags u None None with
  | EUb x => x = NullDeref /\ exists a y, u = a ++ y /\ ~ In ":"%char a /\ empty_tag a
  | EOk (Some (_, s)) => (exists a, u = a ++ ":"%char :: s /\ ~ In ":"%char a /\ ~ empty_tag a)
  | EOk None => True end /\ (forall a y, u = a ++ y -> ~ In ":"%char a -> empty_tag a -> processTags u None None = EUb NullDeref).
Proof.
  assert (X : forall a y, u = a ++ y -> ~ In ":"%char a -> empty_tag a -> processTags u None None = EUb NullDeref).
  { intros a y -> Ha (p & q & -> & Hp). rewrite <- app_assoc. cbn [app]. apply tags_bad; [intros H; apply Ha; apply in_or_app; auto|]. destruct Hp as [Hp|Hp]; auto. }
  split; [|exact X]. pose proof (tags_trap u None None) as H. destruct (processTags u None None) as [[[tg s]|]|x]; [|exact I|].
  - destruct H as (a & E & Ha). change (L ":" ++ s) with (":"%char :: s) in E. exists a. split; [exact E|]. split; [exact Ha|]. intros He. specialize (X a _ E Ha He). discriminate.
  - destruct H as (-> & a & c & E & Ha & HC). split; [reflexivity|]. exists (a ++ [","%char]), c. split; [rewrite <- app_assoc; exact E|]. split.
    + intros H. apply in_app_or in H as [H|[H|[]]]; [auto|discriminate].
    + exists a, []. split; [reflexivity|]. destruct HC as [[-> _]|HC]; auto.
Qed.

(** *** Annotations *)
Lemma name_char_iff c : isFieldNameChar c = true <-> name_char c.
Proof.
  split; [|apply name_char_true]. intros H.
  assert (HB : forallb (fun c => negb (isFieldNameChar c) || existsb (ceq c) (L "abcdefghijklmnopqrstuvwxyzABCDEFGHIJKLMNOPQRSTUVWXYZ0123456789_."))%bool (map ascii_of_nat (seq 0 256)) = true) by (vm_compute; reflexivity).
  rewrite forallb_forall in HB. specialize (HB c). rewrite H in HB. cbn [negb orb] in HB. rewrite existsb_exists in HB. destruct HB as (d & Hd & E).
  - apply in_map_iff. exists (nat_of_ascii c). split; [apply ascii_nat_embedding|]. apply in_seq. pose proof (nat_ascii_bounded c). lia.
  - apply ceq_true in E. subst d. exact Hd.
Qed.
Lemma space_no_name c : isspace c = true -> isFieldNameChar c = false.
Proof.
  intros H. assert (HB : forallb (fun c => negb (isspace c) || negb (isFieldNameChar c))%bool (map ascii_of_nat (seq 0 256)) = true) by (vm_compute; reflexivity).
  rewrite forallb_forall in HB. specialize (HB c). rewrite H in HB. cbn [negb orb] in HB. apply negb_true_iff, HB.
  apply in_map_iff. exists (nat_of_ascii c). split; [apply ascii_nat_embedding|]. apply in_seq. pose proof (nat_ascii_bounded c). lia.
Qed.
Lemma op_add b f b' v u : spaces b -> Forall name_char f -> spaces b' -> ~ In """"%char v ->
  exists op, v1_annotOp (b ++ "+"%char :: f ++ "="%char :: b' ++ """"%char :: v ++ """"%char :: u) = AOps (Some op) u.
Proof.
  intros Hb Hf Hb' Hv. unfold v1_annotOp, getAnnotationOp.
  rewrite (scan_app isspace b) by (auto; intros c r [= <- _]; reflexivity). rewrite skipn_lapp. change (ceq "+" "#") with false. change (ceq "+" "+") with true. cbn [negb]. cbv iota.
  assert (Hf' : Forall (fun c => isFieldNameChar c = true) f) by (eapply Forall_impl; [|exact Hf]; intros c; apply name_char_iff).
  remember (f ++ "="%char :: b' ++ """"%char :: v ++ """"%char :: u) as w eqn:Ew. destruct w as [|c w]; [destruct f; discriminate|]. rewrite Ew.
  rewrite (scan_app isFieldNameChar f) by (auto; intros d r [= <- _]; reflexivity). rewrite skipn_lapp. change (ceq "=" "=") with true. cbn [negb]. cbv iota.
  rewrite (scan_app isspace b') by (auto; intros d r [= <- _]; reflexivity). rewrite skipn_lapp. change (ceq """" """") with true. cbn [negb]. cbv iota.
  rewrite (scan_app (fun c => negb (ceq c """")) v); [|apply without_true; exact Hv|intros d r [= <- _]; reflexivity].
  replace (skipn (S (List.length v)) (v ++ """"%char :: u)) with u by (clear; induction v; cbn in *; auto). eexists. reflexivity.
Qed.
Lemma op_inv u op rest : getAnnotationOp u = AOps (Some op) rest -> rest = [] \/ exists b f b' v,
  u = b ++ "+"%char :: f ++ "="%char :: b' ++ """"%char :: v ++ """"%char :: rest /\ spaces b /\ Forall name_char f /\ spaces b' /\ ~ In """"%char v.
Proof.
  unfold getAnnotationOp. destruct (scan_split isspace u) as (b & u1 & -> & Hb & _ & ->). rewrite skipn_lapp. destruct u1 as [|c u1]; [discriminate|].
  destruct (ceq c "#"); [discriminate|]. destruct (ceq c "+") eqn:Ec; [|discriminate]. apply ceq_true in Ec. subst c. cbn [negb].
  destruct u1 as [|d u1]; [discriminate|]. remember (d :: u1) as w eqn:Ew. clear Ew d u1.
  destruct (scan_split isFieldNameChar w) as (f & w1 & -> & Hf & _ & ->). rewrite skipn_lapp. destruct w1 as [|c w1]; [discriminate|]. destruct (ceq c "=") eqn:Ec; [|discriminate]. apply ceq_true in Ec. subst c. cbn [negb].
  destruct (scan_split isspace w1) as (b' & w2 & -> & Hb' & _ & ->). rewrite skipn_lapp. destruct w2 as [|c w2]; [discriminate|]. destruct (ceq c """") eqn:Ec; [|discriminate]. apply ceq_true in Ec. subst c. cbn [negb].
  destruct (scan_split (fun c => negb (ceq c """")) w2) as (v & w3 & -> & Hv & Hq & ->). intros H. assert (Er : rest = skipn (S (List.length v)) (v ++ w3)) by congruence. clear H. subst rest.
  destruct w3 as [|c w3]; [left; rewrite app_nil_r; apply skipn_all2; lia|]. right. specialize (Hq _ _ eq_refl). apply negb_false_iff in Hq. apply ceq_true in Hq. subst c.
  exists b, f, b', v. replace (skipn (S (List.length v)) (v ++ """"%char :: w3)) with w3 by (clear; induction v; cbn in *; auto).
  split; [reflexivity|]. split; [exact Hb|]. split; [eapply Forall_impl; [|exact Hf]; intros c; apply name_char_iff|]. split; [exact Hb'|]. apply without_true. exact Hv.
Qed.
Lemma op_spaces s : s <> [] -> spaces s -> getAnnotationOp s = AStay.
Proof. intros _ H. unfold getAnnotationOp. rewrite <- (app_nil_r s) at 1 2. rewrite (scan_app isspace s) by (auto; discriminate). rewrite skipn_lapp. reflexivity. Qed.
Lemma stay_spaces u : getAnnotationOp u = AStay -> spaces u.
Proof.
  unfold getAnnotationOp. destruct (scan_split isspace u) as (b & u1 & -> & Hb & _ & ->). rewrite skipn_lapp. destruct u1 as [|c u1]; [intros _; rewrite app_nil_r; exact Hb|].
  destruct (ceq c "#"); [discriminate|]. destruct (negb _); [discriminate|]. destruct u1; [discriminate|]. destruct (skipn _ _) as [|? w]; [discriminate|]. destruct (negb _); [discriminate|]. destruct (skipn _ w); [discriminate|]. destruct (negb _); discriminate.
Qed.
Definition turns (w : text) : Prop := exists u s, w = u ++ s /\ additions u /\ spaces s /\ s <> [].
Lemma loop_turns w s : additions w -> spaces s -> s <> [] -> forall f ops, v1_annot_loop f (w ++ s) ops = EUb OutOfFuel.
Proof.
  intros HW Hs Hne. induction HW as [|b f b' v u Hb Hf Hb' Hv Hu IH].
  - cbn [app]. induction f as [|f IH]; intros ops; [reflexivity|]. cbn [v1_annot_loop]. destruct s as [|c s]; [congruence|]. unfold v1_annotOp. rewrite op_spaces by auto. apply IH.
  - intros [|fu] ops; [reflexivity|]. cbn [v1_annot_loop]. destruct (op_add b f b' v (u ++ s) Hb Hf Hb' Hv) as (op & E).
    replace ((b ++ "+"%char :: f ++ "="%char :: b' ++ """"%char :: v ++ """"%char :: u) ++ s) with (b ++ "+"%char :: f ++ "="%char :: b' ++ """"%char :: v ++ """"%char :: u ++ s)
      by (repeat (rewrite <- !app_assoc; cbn [app]); reflexivity).
    rewrite E. destruct (b ++ _) eqn:EB; [destruct b; discriminate|]. apply IH.
Qed.
Lemma loop_exact : forall f u ops, List.length u < f -> (turns u /\ v1_annot_loop f u ops = EUb OutOfFuel) \/ (~ turns u /\ exists r, v1_annot_loop f u ops = EOk r).
Proof.
  assert (HT : forall u, turns u -> forall f ops, v1_annot_loop f u ops = EUb OutOfFuel) by (intros u (w & s & -> & H1 & H2 & H3) f ops; apply loop_turns; auto).
  assert (HN : forall f u ops r, v1_annot_loop f u ops = EOk r -> ~ turns u) by (intros f u ops r E H; rewrite (HT _ H) in E; discriminate).
  induction f as [|f IH]; intros u ops Hf; [lia|]. destruct (v1_annot_loop (S f) u ops) as [r|x] eqn:E; [right; split; [eapply HN; exact E|eauto]|].
  left. assert (turns u); [|split; [assumption|rewrite <- E; apply HT; assumption]].
  cbn [v1_annot_loop] in E. destruct u as [|c u]; [discriminate|]. remember (c :: u) as w eqn:Ew. assert (Hw : w <> []) by (rewrite Ew; discriminate). clear Ew c u.
  unfold v1_annotOp in E. destruct (getAnnotationOp w) as [| |[op|] rest] eqn:EG; [discriminate| |..].
  - exists [], w. split; [reflexivity|]. split; [constructor|]. split; [eapply stay_spaces; exact EG|exact Hw].
  - assert (HR : List.length rest < f). { apply op_smaller in EG as (a & -> & Ha). rewrite app_length in Hf. destruct a; [congruence|]. cbn [List.length] in Hf. lia. }
    destruct (IH rest (addAnnotOp ops op) HR) as [[HR1 _]|[_ (r & Er)]]; [|rewrite Er in E; discriminate].
    destruct (op_inv _ _ _ EG) as [->|(b & f1 & b' & v & -> & Hb & Hf1 & Hb' & Hv)]; [destruct HR1 as (p & s & Es & _ & _ & Hs); symmetry in Es; apply app_eq_nil in Es as [_ Es]; contradiction|].
    destruct HR1 as (p & s & -> & Hp & Hs & Hs2). exists (b ++ "+"%char :: f1 ++ "="%char :: b' ++ """"%char :: v ++ """"%char :: p), s.
    split; [repeat (rewrite <- !app_assoc; cbn [app]); reflexivity|]. split; [apply ad_one; auto|auto].
  - discriminate.
Qed.
Definition bad_annot (u : text) : Prop := exists tag b w s, u = tag ++ b ++ ":"%char :: w ++ s /\ name tag /\ spaces b /\ additions w /\ spaces s /\ s <> [].
Lemma annot_exact lc f u : List.length u < f -> (bad_annot u /\ v1_annotate f lc u = EUb OutOfFuel) \/ (~ bad_annot u /\ exists lc', v1_annotate f lc u = EOk lc' /\ c_prefix (l_ctx lc') = c_prefix (l_ctx lc)).
Proof.
  intros Hf. unfold v1_annotate.
  destruct (scan_split isFieldNameChar u) as (tag & u1 & Eu & Ht & Ht2 & ->).
  assert (EK : firstn (List.length tag) u = tag) by (rewrite Eu; apply firstn_pre). rewrite EK. clear EK.
  assert (EK : skipn (List.length tag) u = u1) by (rewrite Eu; apply skipn_lapp). rewrite EK. clear EK.
  destruct (scan_split isspace u1) as (b & u2 & Eu1 & Hb & Hb2 & ->).
  assert (EK : skipn (List.length b) u1 = u2) by (rewrite Eu1; apply skipn_lapp). rewrite EK. clear EK.
  assert (HU : bad_annot u <-> tag <> [] /\ exists w, u2 = ":"%char :: w /\ turns w).
  { split.
    - intros (tag' & b' & w & s & E & [Hn1 Hn2] & Hb' & Hw & Hs & Hne).
      assert (Hn3 : Forall (fun c => isFieldNameChar c = true) tag') by (eapply Forall_impl; [|exact Hn2]; intros c; apply name_char_iff).
      assert (HS : forall c r, b' ++ ":"%char :: w ++ s = c :: r -> isFieldNameChar c = false).
      { intros c r E'. destruct b' as [|d b']; cbn [app] in E'; injection E' as <- _; [reflexivity|]. apply space_no_name. inversion Hb'; auto. }
      assert (HX : tag = tag' /\ u1 = b' ++ ":"%char :: w ++ s).
      { rewrite Eu in E. pose proof (scan_app isFieldNameChar tag u1 Ht Ht2) as L1. rewrite E in L1. rewrite (scan_app isFieldNameChar tag' _ Hn3 HS) in L1.
        apply app_inv_len in E; [|symmetry; exact L1]. exact E. }
      destruct HX as [-> ->]. split; [exact Hn1|].
      assert (HY : u2 = ":"%char :: w ++ s).
      { pose proof (scan_app isspace b' (":"%char :: w ++ s) Hb' ltac:(intros c r [= <- _]; reflexivity)) as L1. rewrite Eu1 in L1. rewrite (scan_app isspace b u2 Hb Hb2) in L1.
        symmetry in Eu1. apply app_inv_len in Eu1; [|exact L1]. apply Eu1. }
      exists (w ++ s). split; [exact HY|]. exists w, s. auto.
    - intros (Hn & w & -> & p & s & -> & Hp & Hs & Hne). exists tag, b, p, s. rewrite Eu, Eu1. split; [reflexivity|]. split; [split; [exact Hn|eapply Forall_impl; [|exact Ht]; intros c; apply name_char_iff]|]. auto. }
  assert (HO : ~ bad_annot u -> exists lc', EOk lc = EOk lc' /\ c_prefix (l_ctx lc') = c_prefix (l_ctx lc)) by eauto.
  destruct u2 as [|c w]; [right; split; [|eauto]; rewrite HU; intros (_ & w & E & _); discriminate|].
  destruct tag as [|t0 tag]; [right; split; [|eauto]; rewrite HU; intros (E & _); congruence|].
  destruct (ceq c ":") eqn:Ec; cbn [negb]; [|right; split; [|eauto]; rewrite HU; intros (_ & w' & E & _); injection E as -> _; discriminate].
  apply ceq_true in Ec. subst c. assert (Hl : List.length w < f) by (rewrite Eu, Eu1, !app_length in Hf; cbn [List.length] in Hf; lia).
  destruct (loop_exact f w [] Hl) as [[HT ->]|[HT (r & ->)]].
  - left. split; [|reflexivity]. apply HU. split; [discriminate|eauto].
  - right. split; [rewrite HU; intros (_ & w' & E & HT'); injection E as <-; contradiction|]. destruct r as [ops|]; cbn [ebind]; eexists; split; reflexivity.
Qed.

Lemma getLineType_split l ty u : getLineType l = Some (ty, u) -> List.length u <= List.length l.
Proof. unfold getLineType. set (n := scan _ l). intros H. assert (E : skipn (S n) l = u) by (destruct (firstn n l); [discriminate|congruence]). rewrite <- E, skipn_length. lia. Qed.
Lemma line_exact lc f l : List.length l < f -> let p := c_prefix (l_ctx lc) in
  (exists x, bad_line p l x /\ v1_samp e f lc l = EUb x /\ forall y, bad_line p l y -> y = x) \/
  ((forall x, ~ bad_line p l x) /\ exists lc', v1_samp e f lc l = EOk lc' /\ prefix_behind p l (c_prefix (l_ctx lc'))).
Proof.
  intros Hf p. unfold v1_samp.
  assert (K : forall k u, In k ["prefix"; "extendprefix"; "rule"; "annotate"]%string -> (line_says l k u <-> getLineType l = Some (L k, u))).
  { intros k u Hk. apply says_iff; repeat destruct Hk as [<-|Hk]; try destruct Hk; try discriminate; cbn; intros H; repeat destruct H as [H|H]; try discriminate; exact H. }
  assert (K1 : forall u, line_says l "prefix" u <-> getLineType l = Some (L "prefix", u)) by (intros u; apply K; cbn; tauto).
  assert (K2 : forall u, line_says l "extendprefix" u <-> getLineType l = Some (L "extendprefix", u)) by (intros u; apply K; cbn; tauto).
  assert (K3 : forall u, line_says l "rule" u <-> getLineType l = Some (L "rule", u)) by (intros u; apply K; cbn; tauto).
  assert (K4 : forall u, line_says l "annotate" u <-> getLineType l = Some (L "annotate", u)) by (intros u; apply K; cbn; tauto).
  clear K. assert (KO : (forall u, ~ line_says l "prefix" u) -> (forall u, ~ line_says l "extendprefix" u) -> (forall u, ~ line_says l "rule" u) -> (forall u, ~ line_says l "annotate" u) ->
    ((forall x, ~ bad_line p l x) /\ exists lc', EOk lc = EOk lc' /\ prefix_behind p l (c_prefix (l_ctx lc')))).
  { intros N1 N2 N3 N4. split.
    - intros x [u _ H|a y H _ _|a s u H _ _ _ _ _|tag b u s H _ _ _ _ _]; [apply (N2 _ H)|apply (N3 _ H)|apply (N3 _ H)|apply (N4 _ H)].
    - exists lc. split; [reflexivity|]. apply pb_other; auto. }
  destruct (getLineType l) as [[ty u]|] eqn:EG.
  2:{ right. apply KO; intros u H; [apply K1 in H|apply K2 in H|apply K3 in H|apply K4 in H]; discriminate. }
  assert (HL : List.length u < f) by (apply getLineType_split in EG; lia).
  assert (NE : forall k s, ty = L k -> text_eqb (L k) (L s) = false -> forall v, Some (ty, u) <> Some (L s, v)).
  { intros k s -> Hn v E. injection E as E _. rewrite E in Hn. rewrite text_eqb_refl in Hn. discriminate. }
  destruct (text_eqb ty (L "prefix")) eqn:E1; [|destruct (text_eqb ty (L "extendprefix")) eqn:E2; [|destruct (text_eqb ty (L "rule")) eqn:E3; [|destruct (text_eqb ty (L "annotate")) eqn:E4]]].
  - apply text_eqb_true in E1. right. split.
    + intros x [v _ H|a y H _ _|a s v H _ _ _ _ _|tag b v s H _ _ _ _ _]; [apply K2 in H|apply K3 in H|apply K3 in H|apply K4 in H]; eapply (NE "prefix"%string); eauto; reflexivity.
    + eexists. split; [reflexivity|]. apply pb_set. apply K1. rewrite E1. reflexivity.
  - clear E1. apply text_eqb_true in E2. destruct (c_prefix (l_ctx lc)) as [q|] eqn:EP.
    + right. split.
      * intros x [v Hp H|a y H _ _|a s v H _ _ _ _ _|tag b v s H _ _ _ _ _]; [discriminate Hp|apply K3 in H|apply K3 in H|apply K4 in H]; eapply (NE "extendprefix"%string); eauto; reflexivity.
      * eexists. split; [reflexivity|]. cbn. eapply pb_extend; [reflexivity|]. apply K2. rewrite E2. reflexivity.
    + left. exists NullDeref. split; [apply (bl_extend None l u); [reflexivity|apply K2; rewrite E2; reflexivity]|]. split; [reflexivity|].
      intros z [v Hp H|a y H _ _|a s v H _ _ _ _ _|tag b v s H _ _ _ _ _]; [reflexivity|reflexivity|apply K3 in H|apply K4 in H]; exfalso; eapply (NE "extendprefix"%string); eauto; reflexivity.
  - clear E1 E2. apply text_eqb_true in E3. unfold v1_rule.
    assert (Q : forall v, line_says l "rule" v <-> v = u). { intros v. rewrite K3, E3. split; [congruence|intros ->; reflexivity]. }
    assert (QO : forall lc', c_prefix (l_ctx lc') = p -> prefix_behind p l (c_prefix (l_ctx lc'))).
    { intros lc' ->. apply pb_other; intros v H; [apply K1 in H|apply K2 in H]; eapply (NE "rule"%string); eauto; reflexivity. }
    destruct (tags_split u) as [HT HT2]. destruct (processTags u None None) as [[[tg s]|]|x] eqn:ET; cbn [ebind].
    + destruct HT as (a & Eu & Ha & Hna).
      assert (QS : forall a' s', u = a' ++ ":"%char :: s' -> ~ In ":"%char a' -> s' = s /\ a' = a).
      { intros a' s' E' Ha'. rewrite Eu in E'. clear - E' Ha Ha'. revert a' E' Ha'. induction a as [|c a IH]; intros [|d a'] E' Ha'; cbn [app] in E'.
        - injection E' as ->. auto.
        - injection E' as E1 _. destruct Ha'. left. symmetry. exact E1.
        - injection E' as E1 _. destruct Ha. left. exact E1.
        - injection E' as <- E2. destruct (IH (fun H => Ha (or_intror H)) a' E2 (fun H => Ha' (or_intror H))) as [-> ->]. auto. }
      assert (HB : forall x, bad_line p l x -> x = UninitRead /\ s <> [] /\ breaks (match p with Some p => p | None => [] end ++ s)).
      { intros x [v _ H|a' y H Ha' He|a' s' v H Ha' He Hs Ho Hu|tag b v s' H _ _ _ _ _].
        - exfalso. apply K2 in H. eapply (NE "rule"%string); eauto; reflexivity.
        - exfalso. apply Q in H. symmetry in H. specialize (HT2 _ _ H Ha' He). discriminate.
        - apply Q in H. symmetry in H. destruct (QS _ _ H Ha') as [-> _]. split; [reflexivity|]. split; [exact Hs|exists v; auto].
        - exfalso. apply K4 in H. eapply (NE "rule"%string); eauto; reflexivity. }
      destruct s as [|c s].
      * right. split; [intros x Hx; destruct (HB _ Hx) as (_ & Hs & _); congruence|]. exists lc. split; [reflexivity|]. apply QO. reflexivity.
      * unfold vaddSamp. match goal with |- context [vadd e ?f ?tags ?r ?t] => destruct (vadd_exact tags f r t) as [[HR HV]|[HR (t' & HV)]]; [lia| |]; rewrite HV end; cbn [ebind].
        -- left. exists UninitRead. destruct HR as (v & Ho & Hu). split; [|split; [reflexivity|intros y Hy; apply (HB _ Hy)]].
           apply (bl_name p l a (c :: s) v); auto; [apply Q; symmetry; exact Eu|discriminate].
        -- right. split; [intros x Hx; destruct (HB _ Hx) as (_ & _ & Hx2); contradiction|]. eexists. split; [reflexivity|]. apply QO. reflexivity.
    + right. split; [|exists lc; split; [reflexivity|apply QO; reflexivity]].
      intros x [v _ H|a' y H Ha' He|a' s' v H Ha' He Hs Ho Hu|tag b v s' H _ _ _ _ _].
      * apply K2 in H. eapply (NE "rule"%string); eauto; reflexivity.
      * apply Q in H. symmetry in H. specialize (HT2 _ _ H Ha' He). discriminate.
      * apply Q in H. symmetry in H. clear - H ET Ha'. subst u. revert ET. generalize (@None text) (@None (list json)). induction a' as [|c a IH]; intros cur b; cbn [app processTags].
        -- change (ceq ":" ":") with true. discriminate.
        -- destruct (ceq c ":") eqn:E; [apply ceq_true in E; subst c; destruct Ha'; left; reflexivity|]. assert (Ha2 : ~ In ":"%char a) by (intros H; apply Ha'; right; exact H).
           destruct (ceq c ","); [destruct cur; [|discriminate]|]; apply IH; exact Ha2.
      * apply K4 in H. eapply (NE "rule"%string); eauto; reflexivity.
    + destruct HT as (-> & a & y & Eu & Ha & He). left. exists NullDeref. split; [apply (bl_tag p l a y); auto; apply Q; symmetry; exact Eu|]. split; [reflexivity|].
      intros z [v _ H|a' y' H Ha' He'|a' s' v H Ha' He' Hs Ho Hu|tag b v s' H _ _ _ _ _]; [reflexivity|reflexivity| |exfalso; apply K4 in H; eapply (NE "rule"%string); eauto; reflexivity].
      exfalso. apply Q in H. symmetry in H. apply He'. 
      (* the empty tag stands before the ':' *)
      assert (exists r, a' = a ++ r) as (r & ->).
      { rewrite Eu in H. clear - H Ha. revert a' H. induction a as [|c a IH]; intros a' H; [exists a'; reflexivity|]. destruct a' as [|d a']; cbn [app] in H; injection H as E1 E2.
        - subst c. destruct Ha. left. reflexivity.
        - subst d. destruct (IH (fun H => Ha (or_intror H)) a' E2) as (r & ->). exists r. reflexivity. }
      destruct He as (m & q & -> & Hm). exists m, (q ++ r). split; [rewrite <- app_assoc; reflexivity|exact Hm].
  - clear E1 E2 E3. apply text_eqb_true in E4.
    assert (HB : forall x, bad_line p l x <-> x = OutOfFuel /\ bad_annot u).
    { intros x. split.
      - intros [v _ H|a' y H Ha' He|a' s' v H Ha' He Hs Ho Hu|tag b v s' H H1 H2 H3 H4 H5]; [exfalso; apply K2 in H|exfalso; apply K3 in H|exfalso; apply K3 in H|]; try (eapply (NE "annotate"%string); eauto; reflexivity).
        split; [reflexivity|]. apply K4 in H. injection H as _ H. exists tag, b, v, s'. auto 10.
      - intros [-> (tag & b & w & s & Eu & H1 & H2 & H3 & H4 & H5)]. apply (bl_annotate p l tag b w s); auto. rewrite <- Eu. apply K4. rewrite E4. reflexivity. }
    destruct (annot_exact lc f u HL) as [[HA ->]|[HA (lc' & -> & Hp)]].
    + left. exists OutOfFuel. split; [apply HB; auto|]. split; [reflexivity|]. intros y Hy. apply HB in Hy as [Hy _]. exact Hy.
    + right. split; [intros x Hx; apply HB in Hx as [_ Hx]; contradiction|]. exists lc'. split; [reflexivity|]. rewrite Hp.
      apply pb_other; intros v H; [apply K1 in H|apply K2 in H]; eapply (NE "annotate"%string); eauto; reflexivity.
  - right. apply KO; intros v H; [apply K1 in H|apply K2 in H|apply K3 in H|apply K4 in H]; injection H as -> _; rewrite text_eqb_refl in *; discriminate.
Qed.

Lemma prefix_unique p l q q' : prefix_behind p l q -> prefix_behind p l q' -> q = q'.
Proof.
  assert (K : forall k u, In k ["prefix"; "extendprefix"]%string -> line_says l k u -> getLineType l = Some (L k, u)).
  { intros k u Hk H. apply says_iff in H; auto; repeat destruct Hk as [<-|Hk]; try destruct Hk; try discriminate; cbn; intros H'; repeat destruct H' as [H'|H']; try discriminate; exact H'. }
  pose proof (fun u => K "prefix"%string u (or_introl eq_refl)) as K1. pose proof (fun u => K "extendprefix"%string u (or_intror (or_introl eq_refl))) as K2.
  intros [u H|r u E H|H1 H2] [u' H'|r' u' E' H'|H1' H2']; try (exfalso; eapply H1; eassumption); try (exfalso; eapply H2; eassumption); try (exfalso; eapply H1'; eassumption); try (exfalso; eapply H2'; eassumption); try reflexivity;
    try (apply K1 in H); try (apply K2 in H); try (apply K1 in H'); try (apply K2 in H'); rewrite H in H'; try discriminate; injection H' as ->; [reflexivity|].
  rewrite E in E'. injection E' as ->. reflexivity.
Qed.

Lemma process_exact f : forall ls lc, Forall (fun l => List.length (fst l) < f) ls ->
  (exists x, goes_wrong (c_prefix (l_ctx lc)) ls x /\ v1_process e f lc ls = EUb x /\ forall y, goes_wrong (c_prefix (l_ctx lc)) ls y -> y = x) \/
  ((forall x, ~ goes_wrong (c_prefix (l_ctx lc)) ls x) /\ exists lc', v1_process e f lc ls = EOk lc').
Proof.
  induction ls as [|[l n] ls IH]; intros lc HF.
  - right. split; [intros x H; inversion H|eexists; reflexivity].
  - apply Forall_cons_iff in HF as [H1 HF]. cbn [fst] in H1. cbn [v1_process]. destruct (line_exact lc f l H1) as [(x & Hb & -> & Hu)|[Hb (lc1 & -> & Hp)]].
    + left. exists x. split; [apply gw_here; exact Hb|]. split; [reflexivity|]. intros y Hy. inversion Hy as [? ? ? ? ? Hy'|? ? ? ? ? ? Hn]; subst; [apply Hu; exact Hy'|]. destruct (Hn _ Hb).
    + cbn [ebind]. destruct (IH lc1 HF) as [(x & Hg & E & Hu)|[Hg HE]].
      * left. exists x. split; [eapply gw_later; eauto|]. split; [exact E|]. intros y Hy. inversion Hy as [? ? ? ? ? Hy'|? ? ? ? p' ? _ Hp' Hy']; subst; [destruct (Hb _ Hy')|].
        rewrite (prefix_unique _ _ _ _ Hp' Hp) in Hy'. apply Hu. exact Hy'.
      * right. split; [|exact HE]. intros y Hy. inversion Hy as [? ? ? ? ? Hy'|? ? ? ? p' ? _ Hp' Hy']; subst; [destruct (Hb _ Hy')|].
        rewrite (prefix_unique _ _ _ _ Hp' Hp) in Hy'. destruct (Hg _ Hy').
Qed.
End Rule.

(** ** Reading lines *)
Record reading (t a w inp buf : text) (cnt : N) (ip : bool) : Prop := mk_reading {
  r_text : t = a ++ w ++ inp;
  r_start : begins_line a \/ (w = [] /\ inp = []);
  r_buf : rev buf = filter (fun c => negb (ceq c LF)) w;
  r_cnt : cnt = N.of_nat (List.length buf);
  r_ip : ip = Nat.odd (count_occ ascii_dec w "%"%char);
  r_head : w = [] \/ exists c w', w = c :: w' /\ c <> "#"%char /\ c <> LF;
  r_lf : forall w1 w2, w = w1 ++ LF :: w2 -> Nat.odd (count_occ ascii_dec w1 "%"%char) = true }.
Lemma reading_new t a inp : t = a ++ inp -> begins_line a \/ inp = [] -> reading t a [] inp [] 0 false.
Proof. intros E H. split; auto; [tauto|]. intros [|? ?] w2 K; discriminate K. Qed.
Lemma reading_buf t a w inp buf cnt ip : reading t a w inp buf cnt ip -> (buf = [] <-> w = []).
Proof.
  intros [_ _ H _ _ Hh _]. split; intros ->.
  - destruct Hh as [Hh|(c & w' & -> & _ & Hc)]; [exact Hh|]. cbn [filter rev] in H. apply ceq_false in Hc. rewrite Hc in H. discriminate H.
  - cbn in H. apply (f_equal (@rev _)) in H. rewrite rev_involutive in H. exact H.
Qed.
Lemma reading_line t a w inp buf cnt ip : reading t a w inp buf cnt ip -> buf <> [] -> ends_line inp -> v1_line_of t (rev buf).
Proof.
  intros H Hb He. pose proof (reading_buf _ _ _ _ _ _ _ H) as HB. assert (Hw : w <> []) by tauto. destruct H as [H1 H2 H3 H4 H5 H6 H7].
  exists a, w, inp. split; [exact H1|]. split; [tauto|]. split; [exact He|]. split; [exact H3|]. split; [tauto|exact H7].
Qed.
Lemma skip_line_spec : forall inp, exists x, inp = x ++ skip_line inp /\ (skip_line inp = [] \/ exists x', x = x' ++ [LF]).
Proof.
  induction inp as [|c inp (x & E & H)]; [exists []; auto|]. cbn [skip_line]. destruct (ceq c (chr 10)) eqn:Ec.
  - exists [c]. split; [reflexivity|]. right. exists []. apply ceq_true in Ec. subst c. reflexivity.
  - exists (c :: x). split; [cbn; f_equal; exact E|]. destruct H as [H|[x' ->]]; [auto|right; exists (c :: x'); reflexivity].
Qed.
Definition further (t inp inp' : text) : Prop := (exists a, t = a ++ inp' /\ begins_line a) /\ List.length inp' < List.length inp.
Lemma further_le t inp inp' inp2 : further t inp inp' -> List.length inp <= List.length inp2 -> further t inp2 inp'.
Proof. intros [A B] H. split; [exact A|lia]. Qed.

Lemma v1_read_trap t : forall fuel inp a w buf cnt ip, reading t a w inp buf cnt ip -> List.length inp < fuel ->
  match v1_read fuel inp buf cnt ip with
  | VFuel => False
  | VTooLong inp' => further t inp inp'
  | VNone => True
  | VLine line inp' eof => v1_line_of t line /\ (eof = false -> further t inp inp') end.
Proof.
  induction fuel as [|f IH]; intros inp a w buf cnt ip H Hf; [lia|]. cbn [v1_read].
  destruct inp as [|c inp].
  - destruct buf as [|b buf]; [exact I|]. split; [|discriminate]. eapply (reading_line _ _ _ _ (b :: buf)); [exact H|discriminate|left; reflexivity].
  - cbn [List.length] in Hf. pose proof (reading_buf _ _ _ _ _ _ _ H) as HB.
    assert (W : forall r, match r with VFuel => False | VTooLong inp' => further t inp inp' | VNone => True
        | VLine line inp' eof => v1_line_of t line /\ (eof = false -> further t inp inp') end ->
      match r with VFuel => False | VTooLong inp' => further t (c :: inp) inp' | VNone => True
        | VLine line inp' eof => v1_line_of t line /\ (eof = false -> further t (c :: inp) inp') end).
    { intros [line inp' eof| |inp'|] HW; auto; [destruct HW as [H1 H2]; split; [exact H1|]; intros He|]; (eapply further_le; [eauto|cbn [List.length]; lia]). }
    assert (W2 : forall r inp2, List.length inp2 <= List.length inp -> match r with VFuel => False | VTooLong inp' => further t inp2 inp' | VNone => True
        | VLine line inp' eof => v1_line_of t line /\ (eof = false -> further t inp2 inp') end ->
      match r with VFuel => False | VTooLong inp' => further t (c :: inp) inp' | VNone => True
        | VLine line inp' eof => v1_line_of t line /\ (eof = false -> further t (c :: inp) inp') end).
    { intros [line inp' eof| |inp'|] inp2 Hi HW; auto; [destruct HW as [H1 H2]; split; [exact H1|]; intros He|]; (eapply further_le; [eauto|cbn [List.length]; lia]). }
    pose proof H as [H1 H2 H3 H4 H5 H6 H7]. assert (HS : begins_line a) by (destruct H2 as [H2|[_ H2]]; [exact H2|discriminate]).
    destruct (ceq c (chr 10)) eqn:El.
    + apply ceq_true in El. subst c. cbv zeta.
      assert (HN : reading t (a ++ w ++ [LF]) [] inp [] 0 false).
      { apply reading_new; [rewrite <- !app_assoc; exact H1|]. left. right. left. exists (a ++ w). rewrite <- app_assoc. reflexivity. }
      destruct (ip && runaway (S (List.length inp)) inp)%bool eqn:Er.
      { cbn [negb andb]. rewrite andb_false_r. apply W. apply (IH _ _ _ _ _ _ HN). lia. }
      cbn [negb andb]. rewrite andb_true_r. destruct buf as [|b buf].
      { assert (Ew : w = []) by tauto. subst w. apply W. cbn in H5. subst ip. assert (Ec : cnt = 0%N) by (rewrite H4; reflexivity). subst cnt. apply (IH _ _ _ _ _ _ HN). lia. }
      destruct ip.
      { apply W. apply (IH _ a (w ++ [LF])); [|lia]. split.
        - rewrite <- app_assoc. exact H1.
        - left. exact HS.
        - rewrite filter_app. cbn [filter]. change (ceq LF LF) with true. cbn [negb]. rewrite app_nil_r. exact H3.
        - exact H4.
        - rewrite count_occ_app. change (count_occ ascii_dec [LF] "%"%char) with 0. rewrite Nat.add_0_r. exact H5.
        - right. destruct H6 as [H6|(c & w' & -> & H6)]; [exfalso; destruct HB as [_ HB]; discriminate (HB H6)|]. exists c, (w' ++ [LF]). split; [reflexivity|exact H6].
        - intros w1 w2 Hw. destruct w2 as [|d w2 _] using rev_ind.
          + apply app_inj_tail in Hw as [Hw _]. subst w1. symmetry. exact H5.
          + rewrite app_comm_cons, app_assoc in Hw. apply app_inj_tail in Hw as [Hw _]. eapply H7. exact Hw. }
      split; [eapply (reading_line _ _ _ _ (b :: buf)); [exact H|discriminate|right; exists inp; reflexivity]|].
      intros _. split; [|cbn [List.length]; lia]. exists (a ++ w ++ [LF]). split; [rewrite <- !app_assoc; exact H1|]. right. left. exists (a ++ w). rewrite <- app_assoc. reflexivity.
    + destruct (ceq c "#" && is_nil buf)%bool eqn:Ec.
      * apply andb_true_iff in Ec as [_ Ec]. destruct buf as [|b buf]; [|discriminate]. assert (Ew : w = []) by tauto. subst w. cbn in H5. subst ip.
        destruct (skip_line_spec inp) as (x & Ex & Hx). assert (Hl : List.length (skip_line inp) <= List.length inp) by (rewrite Ex at 2; rewrite app_length; lia).
        apply (W2 _ (skip_line inp) Hl). apply (IH _ (a ++ c :: x) []); [|lia]. apply reading_new.
        -- rewrite <- app_assoc. cbn [app]. rewrite <- Ex. exact H1.
        -- destruct Hx as [Hx|[x' ->]]; [right; exact Hx|left; right; left; exists (a ++ c :: x'); rewrite <- app_assoc; reflexivity].
      * cbv zeta. assert (Hw : t = (a ++ w ++ [c]) ++ inp) by (rewrite <- !app_assoc; exact H1).
        destruct (N.leb (10 * 1024) (cnt + 1)) eqn:E64.
        -- split; [|cbn [List.length]; lia]. exists (a ++ w ++ [c]). split; [exact Hw|]. right. right. rewrite !app_length. cbn [List.length].
           assert (List.length buf <= List.length w). { apply (f_equal (@List.length _)) in H3. rewrite rev_length in H3. rewrite H3. clear. induction w as [|d w IHw]; cbn [filter List.length]; [lia|]. destruct (negb _); cbn [List.length]; lia. }
           apply N.leb_le in E64. lia.
        -- apply W. apply (IH _ a (w ++ [c])); [|lia]. split.
           ++ rewrite <- app_assoc. exact H1.
           ++ left. exact HS.
           ++ rewrite filter_app. cbn [filter rev]. change (ceq c LF) with (ceq c (chr 10)). rewrite El. cbn [negb]. rewrite H3. reflexivity.
           ++ rewrite H4. cbn [List.length]. lia.
           ++ rewrite count_occ_app, H5. cbn [count_occ]. destruct (ascii_dec c "%") as [->|Hc].
              ** change (ceq "%" "%") with true. cbv iota. rewrite Nat.add_1_r, Nat.odd_succ, <- Nat.negb_odd. reflexivity.
              ** rewrite (proj2 (ceq_false c "%") Hc), Nat.add_0_r. reflexivity.
           ++ right. destruct w as [|d w].
              ** assert (Eb : buf = []) by tauto. subst buf. rewrite andb_true_r in Ec. exists c, []. split; [reflexivity|]. split; apply ceq_false; [exact Ec|exact El].
              ** destruct H6 as [H6|(d' & w' & E & H6)]; [discriminate|]. injection E as -> ->. exists d', (w' ++ [c]). split; [reflexivity|exact H6].
           ++ intros w1 w2 Hw2. destruct w2 as [|d w2 _] using rev_ind.
              ** apply app_inj_tail in Hw2 as [_ Hw2]. apply ceq_false in El. contradiction.
              ** rewrite app_comm_cons, app_assoc in Hw2. apply app_inj_tail in Hw2 as [Hw2 _]. eapply H7. exact Hw2.
Qed.


Section Any.
Variable e : env.
Lemma v1_lines_any af t p0 : List.length t < af ->
  forall fuel lc inp, (exists a, t = a ++ inp /\ begins_line a) -> List.length inp < fuel -> prefix_from t p0 (c_prefix (l_ctx lc)) ->
  match v1_lines e af fuel lc inp with
  | EOk _ => True
  | EUb x => exists l p, v1_line_of t l /\ prefix_from t p0 p /\ bad_line p l x end.
Proof.
  intros Haf. induction fuel as [|f IH]; intros lc inp Hs Hf HP; [lia|]. cbn [v1_lines].
  destruct Hs as (a & Ht & Ha). pose proof (v1_read_trap t (S (S (List.length inp))) inp a [] [] 0 false (reading_new _ _ _ Ht (or_introl Ha)) ltac:(lia)) as HR.
  destruct (v1_read (S (S (List.length inp))) inp [] 0 false) as [line inp' eof| |inp'|].
  - destruct HR as [R1 R2].
    assert (HL : List.length line < af).
    { destruct R1 as (b & w & d & E & _ & _ & -> & _). eapply Nat.le_lt_trans; [|exact Haf]. rewrite E, !app_length.
      assert (X : forall w : text, List.length (filter (fun c => negb (ceq c LF)) w) <= List.length w) by (clear; induction w as [|c w IHw]; cbn [filter List.length]; [lia|]; destruct (negb _); cbn [List.length]; lia).
      specialize (X w). lia. }
    destruct (line_exact e lc af line HL) as [(x & Hb & -> & _)|[_ (lc1 & -> & Hp)]]; cbn [ebind]; [eauto|].
    destruct eof; [exact I|]. destruct (R2 eq_refl) as [R3 R4]. apply IH; [exact R3|lia|]. eapply pf_line; eauto.
  - exact I.
  - destruct HR as [R3 R4]. apply IH; [exact R3|lia|exact HP].
  - destruct HR.
Qed.
End Any.
