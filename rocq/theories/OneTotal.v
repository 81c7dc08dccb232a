(** * OneTotal: rules with sane fields always have an outcome, and the normalizer finds it. *)
From Verif Require Import Base Time Parsers Engine Pdag Samp SafetySpec EngineSpec EngineWf EngineSpec2 GraphSpec RuleSpec LineSpec LoadSpec OneSpec BaseFacts FieldFacts ParserSafe ParserSafe2 EngineFacts EngineFacts2 EngineFacts3 EngineTotal EngineGen RuleFacts OptSem OneFacts OneEngine OneTop.
From Coq Require Import ZifyBool ZifyNat ZifyN.

Scheme eats_field_mut := Minimality for eats_field Sort Prop
with eats_mut := Minimality for eats Sort Prop.

Section Total.
Variables (e : env) (types : list (text * rfields)) (msg : text).
Hypothesis Htok : tok_ok e.
Hypothesis Hmsg : harmless e msg.
Hypothesis Htypes1 : one_rule_types types.
Notation N := (List.length msg).
Notation field_at := (field_at e types msg).
Notation fields_at := (fields_at e types msg).
Notation items_at := (items_at e types msg).

(** positions stay inside the message, if no field is cee-syslog *)
Definition total_field (f : rfield) (w : bool) : Prop := forall from, from <= N -> exists r, field_at f w from r /\ forall to v, r = Some (to, v) -> from <= to <= N /\ (eats_field types f -> from < to).
Definition total (fs : rfields) : Prop := forall from, from <= N -> exists r, fields_at fs from r /\ forall to vs, r = Some (to, vs) -> from <= to <= N /\ (eats types fs -> from < to).

Lemma motif_total m w from : m_ok m w -> (exists r, run_motif e m w from (skipn from msg) = Ok r) \/ (exists k, run_motif e m w from (skipn from msg) = Bad k).
Proof.
  intros Hm. destruct (run_motif e m w from (skipn from msg)) as [r|k|u] eqn:E; eauto. apply motif_ub in E. pose proof (harmless_skipn e from msg Hmsg) as (H1 & H2 & H3 & H4 & H5).
  assert (H19 : ~ long_run 19 (skipn from msg)).
  { intros (a & ds & b & He & Hd & Hl). apply H1. rewrite He. exists a, (firstn 10 ds), (skipn 10 ds ++ b). split.
    - rewrite (app_assoc (firstn 10 ds)), firstn_skipn. reflexivity.
    - split; [|rewrite firstn_length; lia]. rewrite <- (firstn_skipn 10 ds) in Hd. apply Forall_app in Hd as [Hd _]. exact Hd. }
  exfalso. inversion E; subst; cbn in Hm; try contradiction; try congruence.
Qed.
Lemma plain_total m w : m_ok m w -> m <> MCee -> total_field (RPlain m) w.
Proof.
  intros Hm HC from Hf. destruct (motif_total m w from Hm) as [[[n v] E]|[k E]].
  - exists (Some (from + n, v)). split; [apply fa_plain; auto|]. intros to v0 [= <- <-]. pose proof E as E2. apply motif_len in E2; auto. rewrite skipn_length in E2. split; [lia|].
    intros He. inversion He as [m0 Hc| |]; subst. pose proof (motif_pos e m w from (skipn from msg) Hc) as HP. rewrite E in HP. unfold pos1 in HP. cbn in HP. lia.
  - exists None. split; [eapply fa_plain_no; eauto|discriminate].
Qed.
Lemma list_total fs : (forall f nm, In (f, nm) fs -> total_field f (has_name nm)) -> total fs.
Proof.
  induction fs as [|[f nm] fs IH]; intros H from Hf.
  - exists (Some (from, [])). split; [constructor|]. intros to vs [= <- <-]. split; [lia|]. intros HE. inversion HE.
  - destruct (H f nm (or_introl eq_refl) from Hf) as ([[mid v]|] & A & B).
    + specialize (B _ _ eq_refl). destruct B as [B1 B2]. destruct (IH (fun f nm Hi => H f nm (or_intror Hi)) mid) as ([[to vs]|] & A' & B'); [lia| |].
      * specialize (B' _ _ eq_refl). destruct B' as [C1 C2]. exists (Some (to, (nm, v) :: vs)). split; [eapply fs_cons; eauto|]. intros to0 vs0 [= <- <-]. split; [lia|]. intros HE. inversion HE as [? ? ? HX|? ? HX]; subst; [specialize (B2 HX)|specialize (C2 HX)]; lia.
      * exists None. split; [eapply fs_later_no; eauto|discriminate].
    + exists None. split; [apply fs_first_no; auto|discriminate].
Qed.
Lemma items_total ps ws permit : total ps -> total ws -> eats types ws -> forall k from good, N - from <= k -> good <= from <= N ->
  exists r, items_at ps ws permit from good r /\ forall to l, r = Some (to, l) -> good <= to <= N /\ (permit = false -> eats types ps -> good < to).
Proof.
  intros HP HW HE. induction k as [|k IH]; intros from good Hk Hg; (destruct (HP from) as ([[a vs]|] & A & B); [lia| |]).
  1,3: destruct (B _ _ eq_refl) as [B1 B2]; (destruct (HW a) as ([[b us]|] & A2 & B3); [lia| |]).
  - destruct (B3 _ _ eq_refl) as [C1 C2]. specialize (C2 HE). lia.
  - exists (Some (a, [item_value (stored [] vs)])). split; [eapply it_last; eauto|]. intros to l [= <- <-]. split; [lia|]. intros _ H. specialize (B2 H). lia.
  - destruct (B3 _ _ eq_refl) as [C1 C2]. specialize (C2 HE). destruct (IH b a) as ([[to l]|] & D & F); [lia|lia| |].
    + exists (Some (to, item_value (stored [] vs) :: l)). split; [eapply it_more; eauto|]. intros to0 l0 [= <- <-]. destruct (F _ _ eq_refl) as [F1 F2]. split; [lia|]. intros P1 P2. specialize (B2 P2). lia.
    + exists None. split; [eapply it_more_no; eauto|discriminate].
  - exists (Some (a, [item_value (stored [] vs)])). split; [eapply it_last; eauto|]. intros to l [= <- <-]. split; [lia|]. intros _ H. specialize (B2 H). lia.
  - destruct permit; [exists (Some (good, []))|exists None]; (split; [constructor; auto|]); [|discriminate]. intros to l [= <- <-]. split; [lia|discriminate].
  - destruct permit; [exists (Some (good, []))|exists None]; (split; [constructor; auto|]); [|discriminate]. intros to l [= <- <-]. split; [lia|discriminate].
Qed.
Lemma repeat_total ps ws permit w : total ps -> total ws -> eats types ws -> total_field (RRepeat ps ws permit) w.
Proof.
  intros HP HW HE from Hf. destruct (items_total ps ws permit HP HW HE N from from) as ([[to l]|] & A & B); [lia|lia| |].
  - specialize (B _ _ eq_refl). destruct B as [B1 B2].
    assert (HX : eats_field types (RRepeat ps ws permit) -> from < to) by (intros H; inversion H; subst; auto).
    destruct w; [destruct l as [|x l]|].
    + exists (Some (to, JNull)). split; [eapply fa_repeat_null; eauto; reflexivity|]. intros to0 v [= <- <-]. auto.
    + exists (Some (to, JArr (x :: l))). split; [apply fa_repeat; auto; discriminate|]. intros to0 v [= <- <-]. auto.
    + exists (Some (to, JNull)). split; [eapply fa_repeat_null; eauto; exact I|]. intros to0 v [= <- <-]. auto.
  - exists None. split; [apply fa_repeat_no; auto|discriminate].
Qed.
Lemma type_total T fs w : In (T, fs) types -> total fs -> total_field (RType T) w.
Proof.
  intros Hi HT from Hf. destruct (HT from Hf) as ([[to vs]|] & A & B).
  - destruct (B _ _ eq_refl) as [B1 B2]. eexists. split; [eapply fa_type; eauto|]. intros to0 v [= <- <-]. split; auto. intros H. inversion H as [|T0 fs0 Hi0 He0|]; subst. apply B2. rewrite (Htypes1 T fs fs0); auto.
  - exists None. split; [eapply fa_type_no; eauto|discriminate].
Qed.

(** from the configurations: the types used come before *)
Section Reads.
Variables (names : list text).
Hypothesis Hnames : forall T, In T names -> exists fs, In (T, fs) types /\ total fs.
Lemma reads_total :
  (forall c f, reads_field e names c f -> sane_field types (fst f) (has_name (snd f)) -> total_field (fst f) (has_name (snd f))) /\
  (forall c fs, reads e names c fs -> sane types fs -> forall f nm, In (f, nm) fs -> total_field f (has_name nm)).
Proof.
  set (P0 := fun (c : json) (f : rfield * option text) => sane_field types (fst f) (has_name (snd f)) -> total_field (fst f) (has_name (snd f))).
  set (P1 := fun (c : json) (fs : rfields) => sane types fs -> forall f nm, In (f, nm) fs -> total_field f (has_name nm)).
  set (P2 := fun (c : list json) (fs : rfields) => sane types fs -> forall f nm, In (f, nm) fs -> total_field f (has_name nm)).
  assert (A1 : forall conf m nm, flat_field e (known names) conf = Some (KSimple m, nm) -> P0 conf (RPlain m, nm)).
  { intros conf m nm _ H. cbn in *. inversion H; subst. apply plain_total; auto. }
  assert (A2 : forall conf ti T nm, flat_field e (known names) conf = Some (KCustom ti, nm) -> nth_error names ti = Some T -> P0 conf (RType T, nm)).
  { intros conf ti T nm _ Hn _. cbn. apply nth_error_In in Hn. destruct (Hnames T Hn) as (fs & Hi & Ht). eapply type_total; eauto. }
  assert (A3 : forall l nm pv wv ps ws permit, NoDup (map fst l) -> obj_get l (L "type") = Some (JStr (L "repeat")) -> named_as l nm ->
    obj_get l (L "parser") = Some pv -> reads e names pv ps -> P1 pv ps -> (2 <= List.length ps -> ~ In (Some (L ".")) (map snd ps)) ->
    obj_get l (L "while") = Some wv -> reads e names wv ws -> P1 wv ws -> permits l permit -> P0 (JObj l) (RRepeat ps ws permit, nm)).
  { intros l nm pv wv ps ws permit _ _ _ _ _ HP _ _ _ HW _ H. cbn in *. inversion H; subst. apply repeat_total; auto; apply list_total; auto. }
  assert (A4 : forall conf f, reads_field e names conf f -> P0 conf f -> P1 conf [f]).
  { intros conf f _ H Hs g nm [E|[]]. subst f. inversion Hs; subst. apply H. auto. }
  assert (A5 : forall c l f fs, reads_field e names c f -> P0 c f -> reads_all e names l fs -> P2 l fs -> P1 (JArr (c :: l)) (f :: fs)).
  { intros c l f fs _ H _ H' Hs g nm Hi. inversion Hs; subst. destruct Hi as [E|Hi]; [injection E as -> ->; apply H; auto|apply H'; auto]. }
  assert (A6 : P2 [] []) by (intros _ f nm []).
  assert (A7 : forall c l f fs, reads_field e names c f -> P0 c f -> reads_all e names l fs -> P2 l fs -> P2 (c :: l) (f :: fs)).
  { intros c l f fs _ H _ H' Hs g nm Hi. inversion Hs; subst. destruct Hi as [E|Hi]; [injection E as -> ->; apply H; auto|apply H'; auto]. }
  split; [apply (reads_field_mut e names P0 P1 P2)|apply (reads_mut e names P0 P1 P2)]; auto.
Qed.
Lemma sane_app a b : sane types (a ++ b) -> sane types a /\ sane types b.
Proof. induction a as [|x a IH]; cbn; intros H; [split; [constructor|auto]|]. inversion H; subst. destruct IH; auto. split; auto. constructor; auto. Qed.
Lemma rule_total cs fs : reads_rule e names cs fs -> sane types fs -> total fs.
Proof.
  intros HR HS. apply list_total. induction HR as [|conf fs cs gs H _ IH]; intros f nm Hi; [destruct Hi|]. apply sane_app in HS as [S1 S2]. apply in_app_or in Hi as [Hi|Hi]; [eapply reads_total; eauto|auto].
Qed.
End Reads.
Lemma one_rule_incl types0 ls ts tags fs : one_rule e types0 ls ts tags fs -> incl types0 ts.
Proof. induction 1 as [types0 T r n ls cs gs ts tags fs H1 H2 H3 H4 H5 H6 H7 IH|]; [|apply incl_refl]. intros x Hx. apply IH. apply in_or_app. auto. Qed.
Lemma one_total types0 ls tags fs : one_rule e types0 ls types tags fs -> all_sane types fs -> (forall T gs, In (T, gs) types0 -> total gs) -> total fs /\ forall T gs, In (T, gs) types -> total gs.
Proof.
  intros HO [HS1 HS2]. remember types as ts eqn:E. revert HS1 E. induction HO as [types0 T r n ls cs gs ts tags fs H1 H2 H3 H4 H5 H6 H7 IH|types0 r n tags cs fs H1 H2 H3 H4]; intros HS1 E HT.
  - subst ts. apply IH; auto. intros T0 g0 Hi. apply in_app_or in Hi as [Hi|[[= <- <-]|[]]]; [eauto|]. pose proof (one_rule_incl _ _ _ _ _ H7) as HI.
    eapply rule_total; [|exact H5|].
    + intros T1 Hi. apply in_map_iff in Hi as ([T2 g2] & <- & Hi). exists g2. split; [apply HI; apply in_or_app; auto|eauto].
    + apply (HS2 T). apply HI. apply in_or_app. right. left. auto.
  - subst types0. split; auto. eapply rule_total; [|exact H4|exact HS1]. intros T1 Hi. apply in_map_iff in Hi as ([T2 g2] & <- & Hi). exists g2. eauto.
Qed.
End Total.

Section Halts.
Variables (e : env) (cx : ctx) (types : list (text * rfields)) (msg : text).
Hypothesis Htok : tok_ok e.
Hypothesis Hnul : ~ In NUL msg.
Hypothesis Htypes1 : one_rule_types types.
Notation N := (List.length msg).
Notation rep := (rep (c_nodes cx) (c_types cx)).
Notation den := (den (c_nodes cx) (c_types cx)).
Notation inner_ok := (inner_ok (c_nodes cx)).
Notation field_at := (field_at e types msg).
Notation fields_at := (fields_at e types msg).
Notation items_at := (items_at e types msg).
Hypothesis Htypes : forall ti T tn, nth_error (c_types cx) ti = Some (T, tn) -> exists fs, In (T, fs) types /\ inner_ok tn /\ Forall (fun f => lits_ok (fst f)) fs /\ rep tn (norm fs).
Hypothesis Hsane : forall T fs, In (T, fs) types -> sane types fs.

Lemma at_bound :
  (forall f w from r, field_at f w from r -> sane_field types f w -> from <= N -> forall to v, r = Some (to, v) -> to <= N) /\
  (forall fs from r, fields_at fs from r -> sane types fs -> from <= N -> forall to vs, r = Some (to, vs) -> to <= N) /\
  (forall ps ws permit from good r, items_at ps ws permit from good r -> sane types ps -> sane types ws -> from <= N -> good <= N -> forall to l, r = Some (to, l) -> to <= N).
Proof.
  set (P0 := fun (f : rfield) (w : bool) (from : nat) (r : option (nat * json)) => sane_field types f w -> from <= N -> forall to v, r = Some (to, v) -> to <= N).
  set (P1 := fun (fs : rfields) (from : nat) (r : option (nat * list (option text * json))) => sane types fs -> from <= N -> forall to vs, r = Some (to, vs) -> to <= N).
  set (P2 := fun (ps ws : rfields) (permit : bool) (from good : nat) (r : option (nat * list json)) => sane types ps -> sane types ws -> from <= N -> good <= N -> forall to l, r = Some (to, l) -> to <= N).
  assert (A1 : forall m named from n v, run_motif e m named from (skipn from msg) = Ok (n, v) -> P0 (RPlain m) named from (Some (from + n, v))).
  { intros m named from n v E HS HF to v0 [= <- <-]. inversion HS; subst. apply motif_len in E; auto. rewrite skipn_length in E. lia. }
  assert (A3 : forall T fs named from to vs, In (T, fs) types -> fields_at fs from (Some (to, vs)) -> P1 fs from (Some (to, vs)) -> P0 (RType T) named from (Some (to, JObj (stored [] vs)))).
  { intros T fs named from to vs Hi _ IH _ HF to0 v [= <- <-]. eapply IH; eauto. }
  assert (A5 : forall ps ws permit from to l, items_at ps ws permit from from (Some (to, l)) -> P2 ps ws permit from from (Some (to, l)) -> l <> [] -> P0 (RRepeat ps ws permit) true from (Some (to, JArr l))).
  { intros ps ws permit from to l _ IH _ HS HF to0 v [= <- <-]. inversion HS; subst. eapply IH; eauto. }
  assert (A6 : forall ps ws permit (named : bool) from to l, items_at ps ws permit from from (Some (to, l)) -> P2 ps ws permit from from (Some (to, l)) -> (if named then l = [] else True) -> P0 (RRepeat ps ws permit) named from (Some (to, JNull))).
  { intros ps ws permit named from to l _ IH _ HS HF to0 v [= <- <-]. inversion HS; subst. eapply IH; eauto. }
  assert (B1 : forall from, P1 [] from (Some (from, []))) by (intros from _ HF to vs [= <- <-]; auto).
  assert (B2 : forall f nm fs from mid v to vs, field_at f (has_name nm) from (Some (mid, v)) -> P0 f (has_name nm) from (Some (mid, v)) -> fields_at fs mid (Some (to, vs)) -> P1 fs mid (Some (to, vs)) -> P1 ((f, nm) :: fs) from (Some (to, (nm, v) :: vs))).
  { intros f nm fs from mid v to vs _ IA _ IB HS HF to0 vs0 [= <- <-]. inversion HS; subst. eapply IB; eauto. }
  assert (C1 : forall ps ws from good, fields_at ps from None -> P1 ps from None -> P2 ps ws true from good (Some (good, []))) by (intros ps ws from good _ _ _ _ _ HG to l [= <- <-]; auto).
  assert (C2 : forall ps ws permit from good a vs, fields_at ps from (Some (a, vs)) -> P1 ps from (Some (a, vs)) -> fields_at ws a None -> P1 ws a None -> P2 ps ws permit from good (Some (a, [item_value (stored [] vs)]))).
  { intros ps ws permit from good a vs _ IA _ _ HS _ HF _ to l [= <- <-]. eapply IA; eauto. }
  assert (C3 : forall ps ws permit from good a vs b us to l, fields_at ps from (Some (a, vs)) -> P1 ps from (Some (a, vs)) -> fields_at ws a (Some (b, us)) -> P1 ws a (Some (b, us)) ->
    items_at ps ws permit b a (Some (to, l)) -> P2 ps ws permit b a (Some (to, l)) -> P2 ps ws permit from good (Some (to, item_value (stored [] vs) :: l))).
  { intros ps ws permit from good a vs b us to l _ IA _ IB _ IC HS HS2 HF HG to0 l0 [= <- <-]. assert (a <= N) by (eapply IA; eauto). assert (b <= N) by (eapply IB; eauto). eapply IC; eauto. }
  split; [|split]; [apply (field_at_mut e types msg P0 P1 P2)|apply (fields_at_mut e types msg P0 P1 P2)|apply (items_at_mut e types msg P0 P1 P2)]; auto; subst P0 P1 P2; cbv beta; intros; discriminate.
Qed.

(** the field's parser answers, given fuel *)
Definition Q (f : rfield) (w : bool) (from : nat) : Prop :=
  forall p, den (p_kind p) f -> has_name (p_name p) = w -> exists F, forall F', F <= F' -> forall s, r_pt s <= from -> exists x, tryParser e cx msg (normalizeRec e cx msg F') F' p from s = EOk x.
Inductive goes : rfields -> nat -> Prop :=
| go_nil : forall from, goes [] from
| go_no : forall f nm fs from, field_at f (has_name nm) from None -> Q f (has_name nm) from -> goes ((f, nm) :: fs) from
| go_on : forall f nm fs from mid v, field_at f (has_name nm) from (Some (mid, v)) -> Q f (has_name nm) from -> mid <= N -> goes fs mid -> goes ((f, nm) :: fs) from.
Definition halts (nd : nat) (l : rfields) (from : nat) : Prop :=
  exists F, forall F', F <= F' -> forall partial s, r_pt s <= from -> (r_js s = None -> forall f, In f l -> snd f = None) -> exists x, normalizeRec e cx msg F' nd from partial s = EOk x /\ r_pt (snd x) <= N.

Lemma plain_Q m w from r : field_at (RPlain m) w from r -> from <= N -> Q (RPlain m) w from.
Proof.
  intros H HF p HD Hw. exists 0. intros F' _ s _. unfold tryParser. inversion HD as [m0 Hm Ek Ef| |]; subst m0. change (match p_name p with Some _ => true | None => false end) with (has_name (p_name p)). rewrite Hw.
  destruct (Nat.ltb_spec N from) as [HL|HL]; [lia|]. inversion H as [? ? ? n v E|? ? ? k E| | | | |]; subst; rewrite E; eauto.
Qed.
Lemma chars_goes t : ~ In NUL t -> forall l from pst, from <= N -> skipn from msg = t ++ pst -> goes l (from + List.length t) -> goes (map C1 t ++ l) from.
Proof.
  induction t as [|c t IH]; intros Ht l from pst HF HP H; cbn [map app List.length] in *; [rewrite Nat.add_0_r in H; exact H|].
  assert (Hc : ~ In NUL [c]) by (intros [Hx|[]]; apply Ht; left; auto). assert (Ht' : ~ In NUL t) by (intros Hx; apply Ht; right; auto).
  assert (HL : from + 1 <= N). { assert (List.length (skipn from msg) = S (List.length (t ++ pst))) by (rewrite HP; reflexivity). rewrite skipn_length in H0. lia. }
  pose proof (lit_at_ok e types msg Hnul [c] false from (t ++ pst) Hc HP) as HA. eapply go_on; [exact HA|eapply plain_Q; [exact HA|lia]|exact HL|]. cbn [List.length].
  apply (IH Ht' l (from + 1) pst); auto; [|replace (from + 1 + List.length t) with (from + S (List.length t)) by lia; auto]. rewrite skip_add, HP. reflexivity.
Qed.
Lemma chars_goes_no t : ~ In NUL t -> forall l from, from <= N -> (forall pst, skipn from msg <> t ++ pst) -> goes (map C1 t ++ l) from.
Proof.
  induction t as [|c t IH]; intros Ht l from HF HP; cbn [map app List.length] in *; [destruct (HP (skipn from msg)); reflexivity|].
  assert (Hc : ~ In NUL [c]) by (intros [Hx|[]]; apply Ht; left; auto). assert (Ht' : ~ In NUL t) by (intros Hx; apply Ht; right; auto).
  destruct (skipn from msg) as [|x m] eqn:E.
  - assert (HA : field_at (RPlain (MLiteral [c])) false from None) by (apply lit_at_no; auto; intros pst; rewrite E; discriminate). apply go_no; [exact HA|eapply plain_Q; [exact HA|lia]].
  - destruct (ascii_dec x c) as [->|Hn].
    + assert (HL : from + 1 <= N). { assert (List.length (skipn from msg) = S (List.length m)) by (rewrite E; reflexivity). rewrite skipn_length in H. lia. }
      pose proof (lit_at_ok e types msg Hnul [c] false from m Hc E) as HA. eapply go_on; [exact HA|eapply plain_Q; [exact HA|lia]|exact HL|]. cbn [List.length]. apply (IH Ht'); auto.
      intros pst Hp. rewrite skip_add, E in Hp. cbn in Hp. apply (HP pst). cbn. congruence.
    + assert (HA : field_at (RPlain (MLiteral [c])) false from None) by (apply lit_at_no; auto; intros pst; rewrite E; cbn; congruence). apply go_no; [exact HA|eapply plain_Q; [exact HA|lia]].
Qed.
Lemma goes_norm fs from : goes fs from -> from <= N -> sane types fs -> Forall (fun f => lits_ok (fst f)) fs -> goes (norm fs) from.
Proof.
  induction 1 as [from|f nm fs from HA HQ|f nm fs from mid v HA HQ HM HG IH]; intros HF HS HL; [constructor| |]; inversion HS; subst; inversion HL as [|? ? L1 L2]; subst; cbn [fst] in L1; cbn [norm flat_map]; fold (norm fs); destruct (chop_cases f nm) as [(t & -> & -> & ->)| ->].
  - apply chars_goes_no; auto. apply (lit_at e types msg Hnul t _ _ _ L1) in HA as [[_ HA]|[HA _]]; [discriminate|exact HA].
  - apply go_no; auto.
  - assert (mid <= N) by (eapply (proj1 at_bound); eauto). apply (lit_at e types msg Hnul t _ _ _ L1) in HA as [[[pst E] HA]|[_ HA]]; [|discriminate]. injection HA as -> ->. eapply chars_goes; eauto.
  - assert (mid <= N) by (eapply (proj1 at_bound); eauto). eapply go_on; eauto.
Qed.
Lemma goes_chars t : ~ In NUL t -> forall l from, goes (map C1 t ++ l) from -> (exists pst, skipn from msg = t ++ pst) /\ goes l (from + List.length t) \/ (forall pst, skipn from msg <> t ++ pst).
Proof.
  induction t as [|c t IH]; intros Ht l from H; cbn [map app List.length] in *; [left; split; [eauto|rewrite Nat.add_0_r; exact H]|].
  assert (Hc : ~ In NUL [c]) by (intros [Hx|[]]; apply Ht; left; auto). assert (Ht' : ~ In NUL t) by (intros Hx; apply Ht; right; auto).
  inversion H as [|? ? ? ? A B|? ? ? ? mid v A B HM D]; subst.
  - right. apply (lit_at e types msg Hnul [c] _ _ _ Hc) in A as [[_ A]|[HN _]]; [discriminate|]. intros pst HP. apply (HN (t ++ pst)). exact HP.
  - apply (lit_at e types msg Hnul [c] _ _ _ Hc) in A as [[[pst E] A]|[_ A]]; [|discriminate]. cbn [has_name List.length] in A. injection A as -> ->. apply (IH Ht') in D as [[[pst' E'] D]|D].
    + left. rewrite skip_add, E in E'. cbn in E'. subst pst. split; [exists pst'; exact E|]. replace (from + S (List.length t)) with (from + 1 + List.length t) by lia. exact D.
    + right. intros pst0 HP. apply (D pst0). rewrite skip_add, HP. reflexivity.
Qed.
Lemma goes_front f nm l from : lits_ok f -> from <= N -> goes (chop (f, nm) ++ l) from -> Q f (has_name nm) from /\ (field_at f (has_name nm) from None \/ exists mid v, field_at f (has_name nm) from (Some (mid, v)) /\ mid <= N /\ goes l mid).
Proof.
  intros Hf HF H. destruct (chop_cases f nm) as [(t & -> & -> & E)|E]; rewrite E in H.
  - apply (goes_chars t Hf) in H as [[[pst HP] H]|H].
    + pose proof (lit_at_ok e types msg Hnul t false from pst Hf HP) as HA. split; [eapply plain_Q; eauto|]. right. exists (from + List.length t), JNull. split; auto. split; auto. assert (List.length (skipn from msg) = List.length (t ++ pst)) by (rewrite HP; reflexivity). rewrite skipn_length, app_length in H0. lia.
    + assert (HA : field_at (RPlain (MLiteral t)) false from None) by (apply lit_at_no; auto). split; [eapply plain_Q; eauto|]. left. exact HA.
  - cbn [app] in H. inversion H as [|? ? ? ? A B|? ? ? ? mid v A B HM D]; subst; (split; [exact B|]); [left; auto|right; exists mid, v; auto].
Qed.
Lemma mid_bound f w from mid v : field_at f w from (Some (mid, v)) -> from <= mid.
Proof. intros H. exact (proj1 (at_mono e cx types msg Htypes) _ _ _ _ H _ _ eq_refl). Qed.
Lemma chop_name f nm l g : lits_ok f -> (forall x, In x (chop (f, nm) ++ l) -> snd x = None) -> g = nm -> g = None /\ forall x, In x l -> snd x = None.
Proof.
  intros Hf H ->. destruct (chop_cases f nm) as [(t & -> & -> & E)|E]; rewrite E in H; (split; [|intros x Hx; apply H; apply in_or_app; auto]); auto.
  exact (H (f, nm) (or_introl eq_refl)).
Qed.

Notation run_ok := (run_ok e cx types msg Hnul Htypes).
Lemma same_at f w from r r' : field_at f w from r -> field_at f w from r' -> r = r'.
Proof. intros A B. exact (proj1 (at_fun e types msg Htypes1) _ _ _ _ A _ B). Qed.
Lemma same_fields fs from r r' : fields_at fs from r -> fields_at fs from r' -> r = r'.
Proof. intros A B. exact (proj1 (proj2 (at_fun e types msg Htypes1)) _ _ _ A _ B). Qed.

Lemma goes_halts nd l : rep nd l -> forall from, from <= N -> goes l from -> halts nd l from.
Proof.
  induction 1 as [i n Hi Hps Hterm|i n p f l Hi Hps Hterm HD HC IH]; intros from HF HG.
  - exists 1. intros [|F'] HF' partial s Hpt Hn; [lia|]. cbn [normalizeRec]. unfold norm_step, get_node. unfold live in Hi. rewrite Hi. cbn [ebind]. rewrite Hps. cbn [parser_loop ebind]. destruct (_ && _)%bool; (eexists; split; [reflexivity|]); cbn; lia.
  - pose proof (den_lits cx _ _ HD) as Hf. destruct (goes_front _ _ _ _ Hf HF HG) as [HQ HN]. destruct (HQ p HD eq_refl) as [Fq HQ'].
    assert (HR : exists Fc, (forall mid v, field_at f (has_name (p_name p)) from (Some (mid, v)) -> mid <= N) /\ forall mid v, field_at f (has_name (p_name p)) from (Some (mid, v)) -> forall F', Fc <= F' -> forall partial s, r_pt s <= mid -> (r_js s = None -> forall f, In f l -> snd f = None) -> exists x, normalizeRec e cx msg F' (p_child p) mid partial s = EOk x /\ r_pt (snd x) <= N).
    { destruct HN as [HA|(mid & v & HA & HM & HG')].
      - exists 0. split; intros mid v HB; pose proof (same_at _ _ _ _ _ HA HB); discriminate.
      - destruct (IH mid HM HG') as [Fc Hc]. exists Fc. split; intros mid' v' HB; [pose proof (same_at _ _ _ _ _ HA HB) as [= <- <-]; exact HM|]. pose proof (same_at _ _ _ _ _ HA HB) as [= <- <-]. exact Hc. }
    destruct HR as (Fc & HMB & HR). exists (S (Nat.max Fq Fc)). intros [|F'] HF' partial s Hpt Hnm; [lia|]. cbn [normalizeRec]. unfold norm_step, get_node. unfold live in Hi. rewrite Hi. cbn [ebind]. rewrite Hps, Hterm. cbn [parser_loop andb].
    destruct (HQ' F' ltac:(lia) (set_log s ((i, true) :: r_log s)) Hpt) as [[o s1] E]. rewrite E. cbn [ebind]. apply (try_runs e cx types msg Hnul Htypes _ _ _ f _ _ _ _ (run_ok F') HD) in E; auto. destruct E as (HA & Hp1 & Hj1). cbn [r_pt r_js set_log] in Hp1, Hj1.
    assert (HNm : r_js s = None -> p_name p = None /\ forall x, In x l -> snd x = None) by (intros E0; eapply chop_name; eauto).
    destruct o as [[mid v]|]; [|cbn [parser_loop ebind]; eexists; split; [reflexivity|]; cbn; lia]. pose proof (mid_bound _ _ _ _ _ HA) as HM.
    destruct (HR _ _ HA F' ltac:(lia) partial s1) as [[ok s2] E2]; [lia|rewrite Hj1; intros E0; apply HNm; auto|]. destruct E2 as [E2 HP2]. cbn [snd] in HP2. rewrite E2. cbn [ebind]. specialize (HMB _ _ HA). destruct ok; [|cbn [parser_loop ebind]; eexists; split; [reflexivity|]; cbn; lia].
    apply (run_ok F' _ _ _ _ _ _ _ HC) in E2; [|lia]. destruct E2 as (r & Hr & HO). destruct r as [[to vs]|]; [|discriminate]. destruct HO as [_ HO]. destruct (HO eq_refl) as (Hj2 & _).
    destruct (fix_good p v (r_js s2)) as (js & Ej & _). { intros E0. apply HNm. rewrite <- Hj1. destruct (r_js s1); [rewrite Hj2 in E0; discriminate|reflexivity]. }
    rewrite Ej. cbn [ebind]. eexists. split; [reflexivity|]. destruct (opt_rule (c_opts cx)); cbn; lia.
Qed.

Lemma all_go :
  (forall f w from r, field_at f w from r -> sane_field types f w -> from <= N -> Q f w from) /\
  (forall fs from r, fields_at fs from r -> sane types fs -> from <= N -> goes fs from) /\
  (forall ps ws permit from good r, items_at ps ws permit from good r -> sane types ps -> sane types ws -> (forall f, In f ws -> snd f = None) -> from <= N ->
     forall pn wn, inner_ok pn -> inner_ok wn -> Forall (fun f => lits_ok (fst f)) ps -> Forall (fun f => lits_ok (fst f)) ws -> rep pn (norm ps) -> rep wn (norm ws) ->
     exists F, forall F' F'', F <= F' -> F <= F'' -> forall lkg arr s, r_pt s <= from -> exists x, repeat_loop (normalizeRec e cx msg F') F'' pn wn permit from lkg arr s = EOk x).
Proof.
  set (P0 := fun (f : rfield) (w : bool) (from : nat) (r : option (nat * json)) => sane_field types f w -> from <= N -> Q f w from).
  set (P1 := fun (fs : rfields) (from : nat) (r : option (nat * list (option text * json))) => sane types fs -> from <= N -> goes fs from).
  set (P2 := fun (ps ws : rfields) (permit : bool) (from good : nat) (r : option (nat * list json)) => sane types ps -> sane types ws -> (forall f, In f ws -> snd f = None) -> from <= N ->
     forall pn wn, inner_ok pn -> inner_ok wn -> Forall (fun f => lits_ok (fst f)) ps -> Forall (fun f => lits_ok (fst f)) ws -> rep pn (norm ps) -> rep wn (norm ws) ->
     exists F, forall F' F'', F <= F' -> F <= F'' -> forall lkg arr s, r_pt s <= from -> exists x, repeat_loop (normalizeRec e cx msg F') F'' pn wn permit from lkg arr s = EOk x).
  assert (A1 : forall m named from r, field_at (RPlain m) named from r -> P0 (RPlain m) named from r) by (intros m named from r H _ HF; eapply plain_Q; eauto).
  assert (A2 : forall T fs named from r r0, In (T, fs) types -> fields_at fs from r -> P1 fs from r -> P0 (RType T) named from r0).
  { intros T fs named from r r0 Hi Hr IH _ HF p HD Hw. inversion HD as [|ti T0 tn Ht Ek Ef|]; subst T0. destruct (Htypes _ _ _ Ht) as (gs & Hg & I1 & L1 & R1). assert (gs = fs) by (eapply Htypes1; eauto). subst gs.
    pose proof (goes_norm fs from (IH (Hsane _ _ Hi) HF) HF (Hsane _ _ Hi) L1) as HG. destruct (goes_halts tn (norm fs) R1 from HF HG) as [F HH]. exists F. intros F' HF' s Hpt. unfold tryParser. rewrite <- Ek, Ht.
    destruct (HH F' HF' true (set_end (set_js s (Some [])) None)) as [[ok s1] [E _]]; [exact Hpt|discriminate|]. rewrite E. cbn [ebind]. eauto. }
  assert (A3 : forall ps ws permit named from r r0, items_at ps ws permit from from r -> P2 ps ws permit from from r -> P0 (RRepeat ps ws permit) named from r0).
  { intros ps ws permit named from r r0 Hr IH HS HF p HD Hw. inversion HS as [| |? ? ? ? S1 S2 S3 S4]; subst. inversion HD as [| |pn wn pe ps0 ws0 I1 I2 L1 L2 R1 R2 Ek Ef]; subst. destruct (IH S1 S2 S4 HF pn wn I1 I2 L1 L2 R1 R2) as [F HH]. exists F. intros F' HF' s Hpt.
    unfold tryParser. rewrite <- Ek. destruct (HH F' F' HF' HF' from None s Hpt) as [[o s1] E]. rewrite E. cbn [ebind]. eauto. }
  assert (B1 : forall from, P1 [] from (Some (from, []))) by (intros from _ _; constructor).
  assert (B2 : forall f nm fs from mid v r r0, field_at f (has_name nm) from (Some (mid, v)) -> P0 f (has_name nm) from (Some (mid, v)) -> fields_at fs mid r -> P1 fs mid r -> P1 ((f, nm) :: fs) from r0).
  { intros f nm fs from mid v r r0 HA IA _ IB HS HF. inversion HS; subst. assert (mid <= N) by (eapply (proj1 at_bound); eauto). eapply go_on; eauto. }
  assert (B3 : forall f nm fs from, field_at f (has_name nm) from None -> P0 f (has_name nm) from None -> P1 ((f, nm) :: fs) from None).
  { intros f nm fs from HA IA HS HF. inversion HS; subst. apply go_no; auto. }
  assert (G : forall fs from r nd, fields_at fs from r -> P1 fs from r -> sane types fs -> from <= N -> Forall (fun f => lits_ok (fst f)) fs -> rep nd (norm fs) -> halts nd (norm fs) from).
  { intros fs from r nd _ IH HS HF HL HR. apply goes_halts; auto. apply goes_norm; auto. }
  assert (NN : forall ws : rfields, (forall f, In f ws -> snd f = None) -> forall f, In f (norm ws) -> snd f = None).
  { intros ws HW f Hf. apply in_flat_map in Hf as ([g nm] & Hg & Hf). specialize (HW _ Hg). cbn in HW. subst nm. destruct (chop_cases g None) as [(t & -> & _ & E)|E]; rewrite E in Hf; [apply in_map_iff in Hf as (c & <- & _); reflexivity|]. destruct Hf as [<-|[]]. reflexivity. }
  assert (C1 : forall ps ws permit from good r0, fields_at ps from None -> P1 ps from None -> P2 ps ws permit from good r0).
  { intros ps ws permit from good r0 HA IA S1 S2 S3 HF pn wn I1 I2 L1 L2 R1 R2. destruct (G _ _ _ pn HA IA S1 HF L1 R1) as [F HH]. exists (S F). intros F' [|F''] HF' HF'' lkg arr s Hpt; [lia|]. cbn [repeat_loop].
    destruct (HH F' ltac:(lia) true (set_end (set_js s (Some [])) None)) as [[ok s1] [E _]]; [exact Hpt|discriminate|]. rewrite E. cbn [ebind]. apply (inner_runs e cx types msg Hnul _ (run_ok F') pn ps) in E; auto.
    destruct E as (r & Hr & E). pose proof (same_fields _ _ _ _ HA Hr) as <-. subst ok. cbn [negb]. destruct permit; eauto. }
  assert (C2 : forall ps ws permit from good a vs r2 r0, fields_at ps from (Some (a, vs)) -> P1 ps from (Some (a, vs)) -> fields_at ws a r2 -> P1 ws a r2 ->
    (forall b us, r2 = Some (b, us) -> exists r3, P2 ps ws permit b a r3) -> P2 ps ws permit from good r0).
  { intros ps ws permit from good a vs r2 r0 HA IA HB IB IC S1 S2 S3 HF pn wn I1 I2 L1 L2 R1 R2. destruct (G _ _ _ pn HA IA S1 HF L1 R1) as [F HH]. assert (Ha : a <= N) by exact (proj1 (proj2 at_bound) _ _ _ HA S1 HF _ _ eq_refl).
    destruct (G _ _ _ wn HB IB S2 Ha L2 R2) as [F2 HH2].
    assert (HC : exists F3, forall b us, r2 = Some (b, us) -> forall F' F'', F3 <= F' -> F3 <= F'' -> forall lkg arr s, r_pt s <= b -> exists x, repeat_loop (normalizeRec e cx msg F') F'' pn wn permit b lkg arr s = EOk x).
    { destruct r2 as [[b us]|]; [|exists 0; discriminate]. destruct (IC _ _ eq_refl) as [r3 IC']. assert (Hb : b <= N) by exact (proj1 (proj2 at_bound) _ _ _ HB S2 Ha _ _ eq_refl). destruct (IC' S1 S2 S3 Hb pn wn I1 I2 L1 L2 R1 R2) as [F3 H3]. exists F3. intros b0 us0 [= <- <-]. exact H3. }
    destruct HC as [F3 HC]. exists (S (F + F2 + F3)). intros F' [|F''] HF' HF'' lkg arr s Hpt; [lia|]. cbn [repeat_loop].
    destruct (HH F' ltac:(lia) true (set_end (set_js s (Some [])) None)) as [[ok s1] [E _]]; [exact Hpt|discriminate|]. rewrite E. cbn [ebind]. apply (inner_runs e cx types msg Hnul _ (run_ok F') pn ps) in E; auto.
    destruct E as (r & Hr & E). pose proof (same_fields _ _ _ _ HA Hr) as <-. destruct E as (-> & _ & ->). cbn [negb].
    destruct (HH2 F' ltac:(lia) true (set_end (set_js (set_pt s1 0) None) None)) as [[ok2 s2] [E2 _]]; [cbn; lia|intros _; apply NN; auto|]. rewrite E2. cbn [ebind]. apply (inner_runs e cx types msg Hnul _ (run_ok F') wn ws) in E2; auto; [|cbn; lia].
    destruct E2 as (r & Hr2 & E2). pose proof (same_fields _ _ _ _ HB Hr2) as <-. destruct r2 as [[b us]|]; [|subst ok2; eauto]. destruct E2 as (-> & _ & E3). rewrite E3. eapply HC; eauto; try lia. }
  split; [|split]; [apply (field_at_mut e types msg P0 P1 P2)|apply (fields_at_mut e types msg P0 P1 P2)|apply (items_at_mut e types msg P0 P1 P2)]; auto.
  all: try (intros; apply A1; econstructor; eauto; fail).
  all: try (intros; eapply A2; eauto; fail).
  all: try (intros; eapply A3; eauto; fail).
  all: try (intros; eapply B2; eauto; fail).
  all: try (intros; eapply C2; eauto; intros; discriminate).
  all: intros; eapply C2; eauto; intros ? ? [= <- <-]; eauto.
Qed.
End Halts.

Lemma one_answers e o cx types tags fs ls msg : ready_one e o cx types tags fs -> one_rule e [] ls types tags fs -> NoDup (map fst types) -> one_rule_types types -> all_sane types fs -> tok_ok e -> harmless e msg ->
  opt_rule o = false -> opt_loc o = false -> exists F, forall nf, F <= nf -> forall js0, exists ok out cx', normalize nf e cx msg js0 = EOk (ok, out, cx').
Proof.
  intros [HT HR HLi (en & n & He & Hn & Htg) HA HO] HOne HN H1 HS Htok Hm O1 O2. pose proof Hm as (_ & Hnul & _).
  destruct (one_total e types msg Htok Hm H1 _ _ _ _ HOne HS) as [HTot _]; [intros ? ? []|]. destruct HS as [HS1 HS2]. destruct (HTot 0) as (r & Hr & _); [lia|].
  pose proof (proj1 (proj2 (all_go e cx types msg Htok Hnul H1 HT HS2)) _ _ _ Hr HS1 (Nat.le_0_l _)) as HG. apply goes_norm in HG; auto; [|lia].
  assert (HH0 : halts e cx msg (c_root cx) (norm fs) 0) by (eapply goes_halts; eauto; lia). destruct HH0 as [F HH]. exists F. intros nf Hf js0. assert (Hp0 : r_pt (st0 js0) <= 0) by apply le_n.
  destruct (HH nf Hf false (st0 js0) Hp0) as [[ok s] [E Hp]]; [discriminate|]. unfold normalize. fold (st0 js0). rewrite E. cbn [ebind snd] in *. cbv zeta.
  apply (run_ok e cx types msg Hnul HT nf _ _ _ _ _ _ _ HR Hp0) in E. destruct E as (r' & Hr' & HOut). destruct ok.
  - destruct r' as [[to vs]|]; [|discriminate]. destruct HOut as [_ HOut]. destruct (HOut eq_refl) as (_ & _ & Hen). rewrite (Hen _ He). unfold get_node. unfold live in Hn. rewrite Hn. cbn [ebind]. rewrite HA, Htg.
    destruct tags as [|t0 tags]; cbn [tag_list annotate ebind]; unfold add_metadata; rewrite HO, O1, O2; cbn; eauto.
  - destruct (Nat.ltb_spec (List.length msg) (r_pt s)) as [HL|HL]; [lia|]. eauto.
Qed.
