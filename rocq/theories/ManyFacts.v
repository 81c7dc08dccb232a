(** * ManyFacts: matches in graphs that hold rules with user-defined types. *)
From Verif Require Import Base Time Parsers Engine Pdag Samp EngineSpec EngineSpec2 GraphSpec RuleSpec BuiltSpec LineSpec LoadSpec OneSpec ManySpec BaseFacts FieldFacts EngineFacts EngineFacts2 EngineFacts3 EngineGen HeapFacts RuleFacts OptSem OneFacts.
From Coq Require Import ZifyBool ZifyNat ZifyN.

Scheme gaccepts_mut := Minimality for gaccepts Sort Prop
with gwalk_mut := Minimality for gwalk Sort Prop
with gitems_mut := Minimality for gitems Sort Prop.

(** ** Fields and atoms *)
Definition rf_of (ts : list (text * nat)) (l : kind * option text) : rfield * option text :=
  (match fst l with
   | KSimple m => RPlain m
   | KCustom ti => RType (match nth_error ts ti with Some (T, _) => T | None => [] end)
   | KRepeat _ _ b => RRepeat [] [] b
   end, snd l).
Definition rf_atom (ts : list (text * nat)) (a : atom) : rfield * option text :=
  match a with AChar c => C1 c | AField k nm => rf_of ts (k, nm) end.
Lemma chop_atoms ts l : chop (rf_of ts l) = map (rf_atom ts) (atoms_of l).
Proof.
  destruct l as [k nm]. destruct k as [m|a b c|ti].
  - destruct m; try reflexivity. destruct nm; [reflexivity|]. cbn. rewrite map_map. reflexivity.
  - reflexivity.
  - reflexivity.
Qed.
Lemma norm_atoms ts ls : norm (map (rf_of ts) ls) = map (rf_atom ts) (atoms ls).
Proof. induction ls as [|l ls IH]; [reflexivity|]. cbn [norm flat_map map atoms]. rewrite chop_atoms, map_app. f_equal. exact IH. Qed.
Lemma norm_eq ts la lb : atoms la = atoms lb -> norm (map (rf_of ts) la) = norm (map (rf_of ts) lb).
Proof. intros H. rewrite !norm_atoms, H. reflexivity. Qed.
Definition clean_atom (a : atom) : Prop := match a with AChar c => c <> NUL | AField (KSimple (MLiteral t)) _ => ~ In NUL t | _ => True end.
Lemma lits_atoms ts l : lits_ok (fst (rf_of ts l)) <-> Forall clean_atom (atoms_of l).
Proof.
  destruct l as [k nm]. cbn [rf_of fst]. assert (HO : forall a, Forall clean_atom [a] <-> clean_atom a) by (intros a; split; [intros H; inversion H; auto|constructor; auto]).
  destruct k as [m| |]; cbn [atoms_of]; try (rewrite HO; cbn; tauto). destruct m; try (rewrite HO; cbn; tauto). destruct nm as [nm|]; [rewrite HO; cbn; tauto|].
  cbn [lits_ok]. rewrite Forall_map, Forall_forall. cbn. split; [intros H c Hc ->; auto|intros H Hc; exact (H _ Hc eq_refl)].
Qed.
Lemma lits_all ts ls : Forall (fun f => lits_ok (fst f)) (map (rf_of ts) ls) <-> Forall clean_atom (atoms ls).
Proof.
  induction ls as [|l ls IH]; [split; constructor|]. cbn [map atoms flat_map]. rewrite Forall_app, Forall_cons_iff, <- lits_atoms, IH. reflexivity.
Qed.
Lemma lits_same ts la lb : atoms la = atoms lb -> Forall (fun f => lits_ok (fst f)) (map (rf_of ts) lb) -> Forall (fun f => lits_ok (fst f)) (map (rf_of ts) la).
Proof. rewrite !lits_all. intros ->. auto. Qed.

Section Takes.
Variables (e : env) (rules : list mrule) (msg : text).
Hypothesis Hnul : ~ In NUL msg.
Notation takes := (takes e rules msg).
Notation takes_all := (takes_all e rules msg).

Lemma takes_mono : (forall f w from to v, takes f w from to v -> from <= to) /\ (forall fs from to vs, takes_all fs from to vs -> from <= to).
Proof.
  set (P0 := fun (f : rfield) (w : bool) (from to : nat) (v : json) => from <= to). set (P1 := fun (fs : rfields) (from to : nat) (vs : list (option text * json)) => from <= to).
  split; [apply (takes_mut e rules msg P0 P1)|apply (takes_all_mut e rules msg P0 P1)]; subst P0 P1; cbv beta; intros; lia.
Qed.
Lemma takes_app fs gs : forall from mid to vs us, takes_all fs from mid vs -> takes_all gs mid to us -> takes_all (fs ++ gs) from to (vs ++ us).
Proof. intros from mid to vs us H. induction H; intros G; [exact G|]. cbn [app]. econstructor; eauto. Qed.
Lemma takes_app_inv fs : forall gs from to ws, takes_all (fs ++ gs) from to ws -> exists mid vs us, ws = vs ++ us /\ takes_all fs from mid vs /\ takes_all gs mid to us.
Proof.
  induction fs as [|[f nm] fs IH]; intros gs from to ws H; cbn [app] in H.
  - exists from, [], ws. split; auto. split; [constructor|auto].
  - inversion H as [|? ? ? ? mid v ? vs A B]; subst. apply IH in B as (m2 & vs2 & us & -> & B1 & B2). exists m2, ((nm, v) :: vs2), us. split; auto. split; auto. econstructor; eauto.
Qed.
Lemma lit_takes t w from to v : ~ In NUL t -> takes (RPlain (MLiteral t)) w from to v <-> from <= List.length msg /\ (exists pst, skipn from msg = t ++ pst) /\ to = from + List.length t /\ v = (if w then JStr t else JNull).
Proof.
  intros Ht. split.
  - intros H. inversion H as [? ? ? n ? Hle E|]; subst. apply (lit_run e msg Hnul t w from n v Ht) in E as (HP & -> & ->). auto.
  - intros (Hle & HP & -> & ->). apply tk_plain; auto. apply (lit_run e msg Hnul t w from); auto.
Qed.
Lemma skip_len from n pst (t : text) : from <= List.length msg -> skipn from msg = t ++ pst -> n = List.length t -> from + n <= List.length msg.
Proof. intros H E ->. pose proof (skipn_length from msg) as HL. rewrite E, app_length in HL. lia. Qed.
Lemma chars_takes t : ~ In NUL t -> forall from, from <= List.length msg -> forall pst, skipn from msg = t ++ pst -> exists vs, takes_all (map C1 t) from (from + List.length t) vs /\ forall o, stored o vs = o.
Proof.
  induction t as [|c t IH]; intros Ht from Hle pst HP; cbn [map List.length].
  - rewrite Nat.add_0_r. exists []. split; [constructor|reflexivity].
  - assert (Hc : ~ In NUL [c]) by (intros [Hx|[]]; apply Ht; left; auto). assert (Ht' : ~ In NUL t) by (intros Hx; apply Ht; right; auto).
    assert (Hle' : from + 1 <= List.length msg) by (eapply (skip_len from 1 (t ++ pst) [c]); eauto).
    destruct (IH Ht' (from + 1) Hle' pst) as (vs & H1 & H2). { rewrite skip_add, HP. reflexivity. }
    exists ((None, JNull) :: vs). split; [|exact H2]. unfold C1 at 1. eapply ta_cons; [apply (lit_takes [c] false); auto; split; auto; split; [exists (t ++ pst); exact HP|split; reflexivity]|].
    cbn [List.length]. replace (from + S (List.length t)) with (from + 1 + List.length t) by lia. exact H1.
Qed.
Lemma chars_took t : ~ In NUL t -> forall from to vs, takes_all (map C1 t) from to vs -> from <= List.length msg -> to = from + List.length t /\ (exists pst, skipn from msg = t ++ pst) /\ forall o, stored o vs = o.
Proof.
  induction t as [|c t IH]; intros Ht from to vs H Hle; cbn [map List.length] in *.
  - inversion H; subst. split; [lia|]. split; [eexists; reflexivity|reflexivity].
  - assert (Hc : ~ In NUL [c]) by (intros [Hx|[]]; apply Ht; left; auto). assert (Ht' : ~ In NUL t) by (intros Hx; apply Ht; right; auto).
    inversion H as [|? ? ? ? mid v ? vs' A B]; subst. apply (lit_takes [c] _ _ _ _ Hc) in A as (_ & (pst & E) & -> & ->). cbn [List.length] in *.
    assert (Hle' : from + 1 <= List.length msg) by (eapply (skip_len from 1 pst [c]); eauto).
    apply (IH Ht') in B as (-> & (pst' & E') & HS); auto. rewrite skip_add, E in E'. cbn in E'. subst pst. split; [lia|]. split; [exists pst'; exact E|exact HS].
Qed.
(** cut into characters and back *)
Lemma norm_takes fs : Forall (fun f => lits_ok (fst f)) fs -> forall from to vs, takes_all fs from to vs -> exists vs', takes_all (norm fs) from to vs' /\ forall o, stored o vs' = stored o vs.
Proof.
  intros HF. induction HF as [|[f nm] fs Hf HF IH]; intros from to vs H; inversion H as [|? ? ? ? mid v ? vs0 A B]; subst.
  - exists []. split; [constructor|reflexivity].
  - apply IH in B as (vs1 & B1 & B2). cbn [norm flat_map]. fold (norm fs). destruct (chop_cases f nm) as [(t & -> & -> & ->)| ->].
    + apply (lit_takes t) in A as (Hle & (pst & E) & -> & ->); auto. destruct (chars_takes t Hf from Hle pst E) as (vs2 & C & D). exists (vs2 ++ vs1). split; [eapply takes_app; eauto|].
      intros o. unfold stored. rewrite fold_right_app. fold (stored o vs1). fold (stored (stored o vs1) vs2). rewrite D, B2. reflexivity.
    + exists ((nm, v) :: vs1). split; [cbn [app]; econstructor; eauto|]. intros o. cbn. fold (stored o vs1) (stored o vs0). rewrite B2. reflexivity.
Qed.
Lemma takes_norm_aux fs : Forall (fun f => lits_ok (fst f)) fs -> forall from to vs, from <= List.length msg -> to <= List.length msg -> takes_all (norm fs) from to vs -> exists vs', takes_all fs from to vs' /\ forall o, stored o vs' = stored o vs.
Proof.
  intros HF. induction HF as [|[f nm] fs Hf HF IH]; intros from to vs Hle Hto H; cbn [norm flat_map] in H.
  - exists vs. split; auto.
  - fold (norm fs) in H. destruct (chop_cases f nm) as [(t & -> & -> & E)|E]; rewrite E in H.
    + apply takes_app_inv in H as (mid & vs1 & us & -> & A & B). apply chars_took in A as (-> & (pst & EP) & HS); auto.
      apply IH in B as (us' & B1 & B2); auto; [|eapply skip_len; eauto]. exists ((None, JNull) :: us'). split; [eapply ta_cons; [apply (lit_takes t false); eauto|exact B1]|].
      intros o. cbn. fold (stored o us'). unfold stored at 2. rewrite fold_right_app. fold (stored o us). fold (stored (stored o us) vs1). rewrite HS, B2. reflexivity.
    + cbn [app] in H. inversion H as [|? ? ? ? mid v ? vs0 A B]; subst. pose proof (proj2 takes_mono _ _ _ _ B) as HM. apply IH in B as (vs1 & B1 & B2); auto; [|lia].
      exists ((nm, v) :: vs1). split; [econstructor; eauto|]. intros o. cbn. fold (stored o vs1) (stored o vs0). rewrite B2. reflexivity.
Qed.
End Takes.

(** ** Matches in the graph *)
Section Graph.
Variables (e : env) (cx : ctx) (rules : list mrule) (msg : text).
Hypothesis Hnul : ~ In NUL msg.
Notation ts := (c_types cx).
Notation h := (c_nodes cx).
Definition no_repeat (p : prs) : Prop := forall a b c, p_kind p <> KRepeat a b c.
Hypothesis HP : all_prs no_repeat h.
(** the rules of a type *)
Definition has_rules (key : place) (nd : nat) : Prop := forall ps b n, path h nd ps b -> live h b n -> n_term n = true ->
  exists ls tags, In (key, map (rf_of ts) ls, tags) rules /\ Forall (fun f => lits_ok (fst f)) (map (rf_of ts) ls) /\ atoms ls = atoms (labels ps) /\ n_tags n = tag_list tags.
Hypothesis HT : forall ti T tn, nth_error ts ti = Some (T, tn) -> (forall n, live h tn n -> n_term n = false) /\ has_rules (Some T) tn.

Definition vals (w : list step) : list (option text * json) := map (fun s => (p_name (st_prs s), st_val s)) w.
Lemma stored_vals o w : stored o (vals w) = fields_of o w.
Proof. unfold stored, vals, fields_of. induction w as [|s w IH]; [reflexivity|]. cbn. rewrite IH. reflexivity. Qed.
Definition rfs (w : list step) : rfields := map (rf_of ts) (labels (map st_prs w)).
Lemma gwalk_takes :
  (forall p from to v, gaccepts e cx msg p from to v -> (exists i n, live h i n /\ In p (n_parsers n)) ->
     from <= to /\ (to <= List.length msg -> takes e rules msg (fst (rf_of ts (p_kind p, p_name p))) (has_name (p_name p)) from to v)) /\
  (forall partial nd offs w en last, gwalk e cx msg partial nd offs w en last ->
     path h nd (map st_prs w) en /\ (exists n, live h en n /\ n_term n = true) /\ offs <= last /\
     (last <= List.length msg -> takes_all e rules msg (rfs w) offs last (vals w)) /\ (partial = false -> last = List.length msg)).
Proof.
  set (P0 := fun (p : prs) (from to : nat) (v : json) => (exists i n, live h i n /\ In p (n_parsers n)) ->
     from <= to /\ (to <= List.length msg -> takes e rules msg (fst (rf_of ts (p_kind p, p_name p))) (has_name (p_name p)) from to v)).
  set (P1 := fun (partial : bool) (nd offs : nat) (w : list step) (en last : nat) => path h nd (map st_prs w) en /\ (exists n, live h en n /\ n_term n = true) /\ offs <= last /\
     (last <= List.length msg -> takes_all e rules msg (rfs w) offs last (vals w)) /\ (partial = false -> last = List.length msg)).
  set (P2 := fun (pn wn : nat) (permit : bool) (from : nat) (vs : list json) (to : nat) => True).
  assert (A1 : forall p from to v, accepts e msg p from to v -> P0 p from to v).
  { intros p from to v (m & n & HK & Hle & -> & Hr) _. split; [lia|]. intros _. cbn [rf_of fst]. rewrite HK. apply tk_plain; auto. }
  assert (A2 : forall p ti nm tn from w en last to, p_kind p = KCustom ti -> nth_error ts ti = Some (nm, tn) -> gwalk e cx msg true tn from w en last -> P1 true tn from w en last -> EngineSpec2.goes_on w last to -> P0 p from to (JObj (fields_of [] w))).
  { intros p ti nm tn from w en last to HK Hti HW (HPa & (n & Hn & Ht) & HL & HTk & _) HG _. destruct (HT _ _ _ Hti) as [H1 H2].
    assert (HG' : last <= to). { destruct HG as [->|]; auto. inversion HPa; subst. rewrite (H1 _ Hn) in Ht. discriminate. }
    split; [lia|]. intros Hto. cbn [rf_of fst]. rewrite HK, Hti. destruct (H2 _ _ _ HPa Hn Ht) as (ls & tags & Hin & HLi & HA & _).
    destruct (norm_takes e rules msg Hnul (rfs w) (lits_same _ _ ls (eq_sym HA) HLi) _ _ _ (HTk ltac:(lia))) as (vs1 & B1 & B2). unfold rfs in B1. rewrite (norm_eq ts _ ls) in B1 by (symmetry; exact HA).
    apply takes_norm_aux in B1 as (vs2 & C1' & C2); auto; try lia. rewrite <- stored_vals, <- B2, <- C2. eapply tk_type; eauto. }
  assert (A3 : forall p pn wn permit from to vs, p_kind p = KRepeat pn wn permit -> gitems e cx msg pn wn permit from vs to -> P2 pn wn permit from vs to -> vs <> [] -> P0 p from to (if named p then JArr vs else JNull)).
  { intros p pn wn permit from to vs HK _ _ _ (i & n & Hi & Hp). destruct (HP _ _ _ Hi Hp _ _ _ HK). }
  assert (A4 : forall p pn wn from, p_kind p = KRepeat pn wn true -> P0 p from from JNull).
  { intros p pn wn from HK (i & n & Hi & Hp). destruct (HP _ _ _ Hi Hp _ _ _ HK). }
  assert (B1 : forall partial nd n offs, node_at cx nd n -> n_term n = true -> offs = List.length msg \/ partial = true -> P1 partial nd offs [] nd offs).
  { intros partial nd n offs Hn Ht HO. split; [constructor|]. split; [exists n; auto|]. split; [lia|]. split; [intros _; constructor|]. intros ->. destruct HO; [auto|discriminate]. }
  assert (B2 : forall partial nd n offs i p to v w en last, node_at cx nd n -> nth_error (n_parsers n) i = Some p -> gaccepts e cx msg p offs to v -> P0 p offs to v ->
     gwalk e cx msg partial (p_child p) to w en last -> P1 partial (p_child p) to w en last -> P1 partial nd offs ({| st_idx := i; st_prs := p; st_from := offs; st_to := to; st_val := v |} :: w) en last).
  { intros partial nd n offs i p to v w en last Hn Hi _ H0 _ (HPa & HTe & HL & HTk & HPt). assert (Hp : In p (n_parsers n)) by (eapply nth_error_In; eauto).
    destruct (H0 (ex_intro _ nd (ex_intro _ n (conj Hn Hp)))) as [H1 H2]. split; [cbn; econstructor; eauto|]. split; auto. split; [lia|]. split; auto. intros HLe. cbn [rfs vals map st_prs labels st_val].
    change (rf_of ts (p_kind p, p_name p)) with (fst (rf_of ts (p_kind p, p_name p)), p_name p). eapply ta_cons; [apply H2; lia|apply HTk; auto]. }
  split.
  - apply (gaccepts_mut e cx msg P0 P1 P2); auto; intros; exact I.
  - apply (gwalk_mut e cx msg P0 P1 P2); auto; intros; exact I.
Qed.

(** the end reported belongs to a match, too *)
Lemma reported_walk : forall w nd offs en last, gwalk e cx msg false nd offs w en last ->
  exists w1 w2, w = w1 ++ w2 /\ gwalk e cx msg false nd offs w1 (reported cx msg false nd offs w en) (List.length msg).
Proof.
  induction w as [|s w IH]; intros nd offs en last H; inversion H as [? ? n ? Hn Ht HO|? ? n ? i p to v ? ? ? Hn Hi Ha Hw]; subst.
  - exists [], []. split; auto. destruct HO as [->|HO]; [|discriminate]. unfold reported, stops_at. unfold node_at in Hn. rewrite Hn, Ht, Nat.eqb_refl. cbn. econstructor; eauto.
  - cbn [reported]. destruct (stops_at cx msg false nd offs) eqn:ES.
    + unfold stops_at in ES. unfold node_at in Hn. rewrite Hn in ES. apply andb_prop in ES as [E1 E2]. rewrite orb_false_r in E2. apply Nat.eqb_eq in E2. subst offs.
      eexists [], (_ :: w). split; [reflexivity|]. econstructor; eauto.
    + destruct (IH _ _ _ _ Hw) as (w1 & w2 & -> & H1). eexists (_ :: w1), w2. split; [reflexivity|]. cbn [st_prs st_to]. econstructor; eauto.
Qed.

Hypothesis HR : has_rules None (c_root cx).
Hypothesis HC : forall fs tags, In (None, fs, tags) rules -> (forall f, In f fs -> exists m, fst f = RPlain m) ->
  exists ps b n, path h (c_root cx) ps b /\ live h b n /\ n_term n = true /\ norm fs = norm (map (rf_of ts) (labels ps)) /\ Forall (fun f => lits_ok (fst f)) fs /\ Forall (fun f => lits_ok (fst f)) (map (rf_of ts) (labels ps)).

(** a rule without user-defined types is a path of simple fields *)
Lemma chop_plain fs : (forall f, In f fs -> exists m, fst f = RPlain m) -> forall f, In f (norm fs) -> exists m, fst f = RPlain m.
Proof.
  intros H f Hf. apply in_flat_map in Hf as ([g nm] & Hg & Hf). destruct (chop_cases g nm) as [(t & -> & -> & E)|E]; rewrite E in Hf.
  - apply in_map_iff in Hf as (c & <- & _). unfold C1. cbn. eauto.
  - destruct Hf as [<-|[]]. exact (H _ Hg).
Qed.
Lemma takes_walk : forall nd ps b, path h nd ps b -> (exists n, live h b n /\ n_term n = true) -> forall from vs, from <= List.length msg ->
  takes_all e rules msg (map (rf_of ts) (labels ps)) from (List.length msg) vs -> (forall l, In l (labels ps) -> exists m, fst l = KSimple m) -> exists w en, walk e cx msg false nd from w en.
Proof.
  intros nd ps b H HTe. induction H as [i|i n p ps j Hi Hp H IH]; intros from vs Hle HTk HS.
  - cbn in HTk. inversion HTk; subst. destruct HTe as (n & Hn & Ht). exists [], i. econstructor; eauto.
  - cbn [labels map] in HTk. fold (labels ps) in HTk. destruct (HS (p_kind p, p_name p)) as [m Hm]; [left; reflexivity|]. cbn in Hm. inversion HTk as [|? ? ? ? mid v ? vs0 A B]; subst. cbn [rf_of fst snd] in A. rewrite Hm in A.
    inversion A as [? ? ? k ? Hle' Hr|]; subst. pose proof (proj2 (takes_mono e rules msg) _ _ _ _ B) as HM. destruct (IH HTe (from + k) vs0) as (w & en & HW); auto; [intros l Hl; apply HS; right; exact Hl|].
    apply In_nth_error in Hp as [ix Hix]. eexists. exists en. eapply walk_step; [exact Hi|exact Hix| |exact HW]. exists m, k. split; [exact Hm|]. split; [exact Hle|]. split; [reflexivity|exact Hr].
Qed.
Lemma plain_kinds ls : (forall p, In p ls -> forall a b c, fst p <> KRepeat a b c) -> (forall f, In f (norm (map (rf_of ts) ls)) -> exists m, fst f = RPlain m) -> forall l, In l ls -> exists m, fst l = KSimple m.
Proof.
  intros HN HF [k nm] Hl. destruct k as [m|a b c|ti]; [cbn; eauto|destruct (HN _ Hl a b c); reflexivity|].
  destruct (HF (rf_of ts (KCustom ti, nm))) as [m Hm]; [|discriminate Hm]. apply in_flat_map. exists (rf_of ts (KCustom ti, nm)). split; [apply in_map; exact Hl|left; reflexivity].
Qed.
Lemma path_norep nd ps b : path h nd ps b -> forall l, In l (labels ps) -> forall a b' c, fst l <> KRepeat a b' c.
Proof.
  intros H. induction H as [|i n p ps j Hi Hp H IH]; intros l Hl; [destruct Hl|]. destruct Hl as [<-|Hl]; [|apply IH; exact Hl]. exact (HP _ _ _ Hi Hp).
Qed.
Lemma plain_rule_walk fs tags vs : In (None, fs, tags) rules -> (forall f, In f fs -> exists m, fst f = RPlain m) -> takes_message e rules msg fs vs -> exists w en, walk e cx msg false (c_root cx) 0 w en.
Proof.
  intros Hin HF HM. destruct (HC _ _ Hin HF) as (ps & b & n & Hpa & Hb & Ht & EN & HL & HL2). unfold takes_message in HM.
  apply (norm_takes e rules msg Hnul fs HL) in HM as (vs1 & M1 & _). rewrite EN in M1. apply takes_norm_aux in M1 as (vs2 & M2 & _); auto; [|lia].
  eapply takes_walk; eauto; [lia|]. apply plain_kinds; [eapply path_norep; eauto|]. rewrite <- EN. apply chop_plain. exact HF.
Qed.

Lemma success_rule w en : gwalk e cx msg false (c_root cx) 0 w en (List.length msg) ->
  exists fs tags0 vs fs1 tags vs1 vs2 n, In (None, fs, tags0) rules /\ takes_message e rules msg fs vs /\ In (None, fs1, tags) rules /\ takes_message e rules msg fs1 vs1 /\
    (forall x, stored x vs = stored (stored x vs2) vs1) /\ (forall x, stored x vs = fields_of x w) /\ live h (reported cx msg false (c_root cx) 0 w en) n /\ n_tags n = tag_list tags.
Proof.
  assert (HG : forall w en, gwalk e cx msg false (c_root cx) 0 w en (List.length msg) -> exists fs tags vs n, In (None, fs, tags) rules /\ takes_message e rules msg fs vs /\ (forall x, stored x vs = fields_of x w) /\ live h en n /\ n_tags n = tag_list tags).
  { intros w0 en0 HW. apply (proj2 gwalk_takes) in HW as (Hpa & (n & Hn & Ht) & _ & HTk & _). specialize (HTk (le_n _)).
    destruct (HR _ _ _ Hpa Hn Ht) as (ls & tags & Hin & HLi & HA & Htg).
    destruct (norm_takes e rules msg Hnul (rfs w0) (lits_same _ _ ls (eq_sym HA) HLi) _ _ _ HTk) as (vs1 & B1 & B2). unfold rfs in B1. rewrite (norm_eq ts _ ls) in B1 by (symmetry; exact HA).
    apply takes_norm_aux in B1 as (vs2 & C1' & C2); auto; try lia. exists (map (rf_of ts) ls), tags, vs2, n. split; auto. split; auto. split; [intros x; rewrite C2, B2, stored_vals; reflexivity|auto]. }
  intros HW. destruct (HG _ _ HW) as (fs & tags0 & vs & n0 & G1 & G2 & G3 & _). destruct (reported_walk _ _ _ _ _ HW) as (w1 & w2 & E & HW1).
  destruct (HG _ _ HW1) as (fs1 & tags & vs1 & n & K1 & K2 & K3 & K4 & K5). exists fs, tags0, vs, fs1, tags, vs1, (vals w2), n. do 4 (split; auto). split; [|auto].
  intros x. rewrite G3, K3, stored_vals, E. unfold fields_of. rewrite fold_right_app. reflexivity.
Qed.
End Graph.
