(** * TrapLoad: reading a rulebase misbehaves only where it has a trap. *)
From Verif Require Import SynSpec SynFacts.
From Verif Require Import Base Parsers Engine Pdag Samp GraphSpec TrapSpec BaseFacts EngineFacts2 HeapFacts BuildFacts BuildFacts2 BuildFacts3 OptTotal OptFacts LoadFacts LabelFacts TrapFacts.
From Coq Require Import ZifyBool ZifyNat ZifyN Permutation.

(** literals made from the text of rules have no trap *)
Lemma position_lit c y : position (literal_conf c) y -> y = literal_conf c.
Proof. intros H. inversion H as [|? ? ? Hi Hp|l k x ? Hi Hk Hp]; subst; auto. destruct Hi as [Hi|[Hi|[]]]; injection Hi as <- <-; destruct Hk as [Hk|Hk]; discriminate Hk. Qed.
Lemma lit_no_trap e c u : ~ conf_trap e (literal_conf c) u.
Proof.
  intros H. inversion H as [Hw|l Hp Hn|Hp|l tv Hp Ht Hs Hn|l k a x Hp Hk Hi Hx Hm|l k v x s Hs Hp Hk Hi Hx Hj H8]; subst.
  - inversion Hw as [|? ? ? Hi Hp|l k x ? Hi Hp]; subst. destruct Hi as [Hi|[Hi|[]]]; injection Hi as <- <-; inversion Hp.
  - apply position_lit in Hp. injection Hp as ->. discriminate Hn.
  - apply position_lit in Hp. discriminate Hp.
  - apply position_lit in Hp. injection Hp as ->. discriminate Hn.
  - apply position_lit in Hp. injection Hp as ->. destruct Hi as [Hi|[Hi|[]]]; discriminate Hi.
  - apply position_lit in Hp. injection Hp as ->. destruct Hi as [Hi|[Hi|[]]]; injection Hi as <- <-; discriminate Hk.
Qed.

Section TL.
Variables (e : env) (p0 : option text) (Ln : text -> Prop).
Notation trap := (load_trap e p0 Ln).
Definition D : Prop := trap NullDeref.
Definition dt (cx : ctx) : Prop := all_data (c_nodes cx) \/ D.
Definition ok_end (o : option (option nat)) : Prop := o = Some None -> D.

Lemma addParser_trap cx d conf : (forall u, conf_trap e conf u -> trap u) -> msafe cx -> okref (c_nodes cx) (Some d) -> dt cx ->
  tpost trap (fun x => (hstep cx (fst x) /\ msafe (fst x) /\ match snd x with None => True | Some d => okref (c_nodes (fst x)) d end) /\ dt (fst x) /\ ok_end (snd x)) (addParser e cx d conf).
Proof.
  intros HC HM Hd HD. pose proof (addParser_safe e cx d conf HM Hd) as HS. pose proof (addParser_tr e conf D cx d) as HT.
  assert (HD' : dd e conf D cx) by (destruct HD as [HD|HD]; [left; exact HD|right; right; exact HD]). specialize (HT HD').
  destruct HM as (G & rk & HG). pose proof (addParser_ok e cx d conf (G ++ owners cx) rk HG Hd) as HO.
  destruct (addParser e cx d conf) as [[cx' r]|u]; cbn [tpost upost epost fst snd] in *.
  - split; [exact HS|]. destruct HT as [H1 H2]. split.
    + destruct H1 as [H1|[H1|H1]]; [left; exact H1|right; apply HC; exact H1|right; exact H1].
    + intros E. apply HC. apply H2. exact E.
  - destruct HT as [HT|[HT|HT]]; [apply HC; exact HT|tauto|tauto].
Qed.
Lemma literals_trap : forall l cx dag, msafe cx -> okref (c_nodes cx) dag -> (dag = None -> D) -> dt cx ->
  tpost trap (fun x => (hstep cx (fst x) /\ msafe (fst x) /\ match snd x with None => True | Some d => okref (c_nodes (fst x)) d end) /\ dt (fst x) /\ ok_end (snd x)) (add_literals e cx dag l).
Proof.
  induction l as [|c l IH]; intros cx dag HM Hd Hn HD; cbn [add_literals].
  - cbn. split; [auto using hstep_refl|]. split; [exact HD|]. intros [= ->]. auto.
  - destruct dag as [d|]; [|exact (Hn eq_refl)]. eapply tpost_bind; [apply (addParser_trap cx d (literal_conf c)); auto; intros u Hu; destruct (lit_no_trap e c u Hu)|].
    intros [cx1 [d1|]] [(A1 & A2 & A3) [A4 A5]]; cbn [fst snd] in *; [|cbn; split; auto].
    eapply tpost_mono; [apply (IH cx1 d1); auto|].
    + intros ->. apply A5. reflexivity.
    + intros x [(B1 & B2 & B3) B4]. split; [|exact B4]. split; auto. eapply hstep_trans; eauto.
Qed.

Lemma literal_rest : forall n u l r, List.length u <= n -> literal_part u = (l, r) -> (exists a, u = a ++ r) /\ (r = [] \/ exists r', r = L "%" ++ r').
Proof.
  induction n as [|n IH]; intros [|c u] l r Hn H; cbn [literal_part] in H; try (injection H as <- <-; split; [exists []; reflexivity|left; reflexivity]); cbn [List.length] in Hn; [lia|].
  destruct (ceq c "%") eqn:Ec.
  - destruct u as [|d u]; [injection H as <- <-; split; [exists [c]; reflexivity|left; reflexivity]|]. destruct (ceq d "%") eqn:Ed.
    + destruct (literal_part u) as [l1 r1] eqn:E1. injection H as <- <-. cbn [List.length] in Hn. destruct (IH u l1 r1 ltac:(lia) E1) as [[a ->] Hr]. split; [exists (c :: d :: a); reflexivity|exact Hr].
    + injection H as <- <-. split; [exists []; reflexivity|]. right. apply ceq_true in Ec. subst c. exists (d :: u). reflexivity.
  - destruct (literal_part u) as [l1 r1] eqn:E1. injection H as <- <-. destruct (IH u l1 r1 ltac:(lia) E1) as [[a ->] Hr]. split; [exists (c :: a); reflexivity|exact Hr].
Qed.
Lemma skip_app n (u : text) : u = firstn n u ++ skipn n u. Proof. symmetry. apply firstn_skipn. Qed.
Lemma legacy_rest u r j : parseLegacyFieldDescr e u = Ok (r, j) -> exists a, u = a ++ r.
Proof.
  unfold parseLegacyFieldDescr. intros H.
  destruct (negb _); [|discriminate]. destruct (negb _); [|discriminate]. destruct (negb _); [|discriminate].
  set (v := skipn (S _) u) in H. assert (Hv : exists a, u = a ++ v) by (eexists; apply skip_app). clearbody v.
  set (w := skipn _ v) in H. assert (Hw : exists a, u = a ++ w). { destruct Hv as [a ->]. eexists. rewrite (skip_app (scan (fun c => negb (ceq c ":" || ceq c "{" || ceq c "%")) v) v) at 1. rewrite app_assoc. reflexivity. }
  clearbody w. destruct w as [|c w]; [discriminate|].
  assert (X : forall x : option json * text, (exists a, u = a ++ snd x) -> (let '(js, u0) := x in
      match u0 with [] => Ub UninitRead | c :: u' =>
          let '(ed, u0) := if ceq c "%" then (None, u') else let k := scan (fun c => negb (ceq c "%")) u' in (Some (unescape e (firstn k u')), skipn (S k) u') in
          let o := str_obj [("name"%string, cstr (firstn (scan (fun c0 => negb (ceq c0 ":")) u) u)); ("type"%string, drop_nul (rtrim (firstn (scan (fun c => negb (ceq c ":" || ceq c "{" || ceq c "%")) v) v)))] in
          let o := match ed with Some x => obj_add o (L "extradata") (JStr (cstr (nul_blank x))) | None => o end in
          let o := match js with Some (JObj l) => fold_left (fun o kv => obj_add o (fst kv) (snd kv)) l o | _ => o end in
          Ok (u0, JObj o) end) = Ok (r, j) -> exists a, u = a ++ r).
  { clear. intros [js t] [a Ha] H. cbn [snd] in Ha. destruct t as [|c t]; [discriminate|]. destruct (ceq c "%").
    - cbv zeta in H. assert (E : t = r) by congruence. subst t. exists (a ++ [c]). rewrite <- app_assoc. exact Ha.
    - cbv zeta in H. set (k := scan _ t) in H. assert (E : skipn (S k) t = r) by congruence. exists (a ++ c :: firstn (S k) t). rewrite <- app_assoc. cbn [app]. rewrite <- E. rewrite (firstn_skipn (S k) t). exact Ha. }
  revert H. apply X. clear X. destruct (ceq c "{"); [|exact Hw]. destruct Hw as [a Hw]. destruct (json_tok e (c :: w)) as [[j1 k]|]; cbn [snd].
  - exists (a ++ firstn k (c :: w)). rewrite <- app_assoc, firstn_skipn. exact Hw.
  - exists (a ++ firstn (json_erroff e (c :: w)) (c :: w)). rewrite <- app_assoc, firstn_skipn. exact Hw.
Qed.
Lemma field_rest u r j : fieldDescr e (L "%" ++ u) = Ok (r, j) -> exists a, u = a ++ r.
Proof.
  unfold fieldDescr. intros H. change (skipn 1 (L "%" ++ u)) with u in H.
  set (v := skipn _ u) in H. assert (Hv : exists a, u = a ++ v) by (eexists; apply skip_app). clearbody v.
  destruct v as [|c v]; [discriminate|]. destruct (ceq c "{" || ceq c "[")%bool.
  - destruct (json_tok e (c :: v)) as [[j1 k]|]; [|discriminate]. destruct Hv as [a Hv].
    assert (X : forall d t, skipn k (c :: v) = d :: t -> exists a, u = a ++ t).
    { intros d t E. exists (a ++ firstn k (c :: v) ++ [d]). rewrite <- !app_assoc. cbn [app]. rewrite <- E, firstn_skipn. exact Hv. }
    assert (Y : match skipn k (c :: v) with d :: u' => if ceq d "%" then Ok (u', j1) else Bad 0 | [] => Bad 0 end = Ok (r, j)) by (destruct j1; try discriminate H; exact H).
    destruct (skipn k (c :: v)) as [|d t] eqn:E; [discriminate|]. destruct (ceq d "%"); [|discriminate]. assert (t = r) by congruence. subst t. eapply X. reflexivity.
  - apply legacy_rest in H as [b H]. destruct Hv as [a ->]. exists (a ++ b). rewrite <- app_assoc. congruence.
Qed.
Lemma scan_all (p : ascii -> bool) u : Forall (fun c => p c = true) (firstn (scan p u) u).
Proof. induction u as [|c u IH]; [constructor|]. cbn [scan]. destruct (p c) eqn:E; [constructor; auto|constructor]. Qed.
Lemma scan_colon u : scan (fun c => negb (ceq c ":")) u = List.length u \/ skipn (scan (fun c => negb (ceq c ":")) u) u = ":"%char :: skipn (S (scan (fun c => negb (ceq c ":")) u)) u.
Proof.
  induction u as [|c u IH]; [left; reflexivity|]. cbn [scan]. destruct (ceq c ":") eqn:E; cbn [negb].
  - right. apply ceq_true in E. subst c. reflexivity.
  - destruct IH as [IH|IH]; [left; cbn [List.length]; lia|right; exact IH].
Qed.
Lemma legacy_ub u x : parseLegacyFieldDescr e u = Ub x -> exists a t js, u = a ++ L ":" ++ t ++ js /\ ~ In ":"%char a /\ (forall c, In c t -> ~ In c (L ":{%")) /\ (exists js', js = L "{" ++ js') /\
  match json_tok e js with Some (_, k) => List.length js <= k | None => List.length js <= json_erroff e js end.
Proof.
  unfold parseLegacyFieldDescr. intros H.
  destruct (negb (N.leb _ _)); [|discriminate]. destruct (Nat.eqb (scan (fun c => negb (ceq c ":")) u) (List.length u)) eqn:HE; [discriminate|]. cbn [negb] in H. destruct (negb _); [|discriminate].
  pose proof (scan_all (fun c => negb (ceq c ":")) u) as HA. destruct (scan_colon u) as [HC|HC]; [rewrite HC, Nat.eqb_refl in HE; discriminate HE|].
  pose proof (skip_app (scan (fun c => negb (ceq c ":")) u) u) as Hu. rewrite HC in Hu.
  set (a := firstn (scan (fun c => negb (ceq c ":")) u) u) in *. clearbody a.
  set (v := skipn (S _) u) in *. clearbody v. clear HC HE.
  pose proof (scan_all (fun c => negb (ceq c ":" || ceq c "{" || ceq c "%")) v) as HT.
  pose proof (skip_app (scan (fun c => negb (ceq c ":" || ceq c "{" || ceq c "%")) v) v) as Hv.
  set (t := firstn _ v) in *. set (w := skipn _ v) in *. clearbody t w.
  destruct w as [|c w]; [discriminate|]. exists a, t, (c :: w).
  split; [rewrite Hu, Hv; reflexivity|].
  split; [intros Hi; rewrite Forall_forall in HA; specialize (HA _ Hi); discriminate HA|].
  split; [intros d Hd Hi; rewrite Forall_forall in HT; specialize (HT _ Hd); repeat (destruct Hi as [<-|Hi]; [discriminate HT|]); destruct Hi|].
  assert (X : forall o t, skipn o t = [] -> List.length (t : text) <= o).
  { intros o z E. apply (f_equal (@List.length _)) in E. rewrite skipn_length in E. cbn in E. lia. }
  destruct (ceq c "{") eqn:Ec; [|destruct (ceq c "%"); discriminate H]. apply ceq_true in Ec. subst c. split; [exists w; reflexivity|].
  destruct (json_tok e ("{"%char :: w)) as [[j1 k]|]; apply X.
  - destruct (skipn k ("{"%char :: w)) as [|c z]; [reflexivity|]. destruct (ceq c "%"); discriminate H.
  - destruct (skipn (json_erroff e ("{"%char :: w)) ("{"%char :: w)) as [|c z]; [reflexivity|]. destruct (ceq c "%"); discriminate H.
Qed.
Lemma field_ub u x : fieldDescr e (L "%" ++ u) = Ub x -> x = UninitRead /\ unfinished e (L "%" ++ u).
Proof.
  intros H. split; [eapply fieldDescr_noub; exact H|]. unfold fieldDescr in H. change (skipn 1 (L "%" ++ u)) with u in H.
  destruct (skipn (scan isspace u) u) as [|c v] eqn:Ev.
  - left. exists u. split; [reflexivity|]. clear H. revert Ev. induction u as [|d u IH]; intros Ev; [constructor|]. cbn [scan] in Ev. destruct (isspace d) eqn:Ed; [|discriminate]. constructor; [exact Ed|]. apply IH. exact Ev.
  - destruct (ceq c "{" || ceq c "[")%bool.
    + exfalso. destruct (json_tok e (c :: v)) as [[j k]|]; [|discriminate]. destruct j; try discriminate H; (destruct (skipn k (c :: v)) as [|d t]; [discriminate|]; destruct (ceq d "%"); discriminate).
    + apply legacy_ub in H as (a & t & js & E & Ha & H). right. exists (firstn (scan isspace u) u ++ a), t, js. split; [|split; [|exact H]].
      * rewrite <- app_assoc, <- E, <- Ev, firstn_skipn. reflexivity.
      * intros Hi. apply in_app_or in Hi as [Hi|Hi]; [|exact (Ha Hi)]. pose proof (scan_all isspace u) as HF. rewrite Forall_forall in HF. specialize (HF _ Hi). discriminate HF.
Qed.

Lemma literal_open rule l r : literal_part rule = (l, r) -> r = [] \/ exists a c u, r = "%"%char :: c :: u /\ c <> "%"%char /\ rule = a ++ r /\ literal_run a.
Proof.
  intros E. destruct (part_spelled _ rule l r (le_n _) E) as (w & Hw & HC).
  assert (HL : literal_run w) by (clear - Hw; induction Hw; [constructor|constructor; auto|apply lr_percent; auto]).
  destruct HC as [[_ ->]|[[_ ->]|(c & v & -> & Hc & E2)]]; [auto|auto|]. right. exists w, c, v. auto.
Qed.

Lemma add_rule_trap full : rule_of p0 Ln full -> forall fuel cx dag rule, (forall w, opens_at e rule w -> opens_at e full w) -> List.length rule < fuel ->
  msafe cx -> okref (c_nodes cx) dag -> (dag = None -> D) -> dt cx ->
  tpost trap (fun x => (hstep cx (fst x) /\ msafe (fst x) /\ match snd x with None => True | Some d => okref (c_nodes (fst x)) d end) /\ dt (fst x) /\ ok_end (snd x)) (add_rule e fuel cx dag rule).
Proof.
  intros HR. induction fuel as [|f IH]; intros cx dag rule Hsub Hf HM Hd Hn HD; [lia|]. cbn [add_rule].
  destruct rule as [|c0 rule]; [cbn; split; [auto using hstep_refl|]; split; [exact HD|]; intros [= ->]; auto|].
  destruct (literal_part (c0 :: rule)) as [lit rest] eqn:EL. apply literal_open in EL.
  eapply tpost_bind; [apply (literals_trap _ cx dag HM Hd Hn HD)|].
  intros [cx1 [d1|]] [(A1 & A2 & A3) [A4 A5]]; cbn [fst snd] in *; [|cbn; split; auto].
  destruct EL as [->|(a & c & u0 & -> & Hc & Ea & Ha)]; [cbn; split; auto|].
  destruct (fieldDescr e ("%"%char :: c :: u0)) as [[rest' conf]|k|u] eqn:EF.
  - destruct d1 as [d|]; [|apply A5; reflexivity]. eapply tpost_bind; [apply (addParser_trap cx1 d conf)|].
    + intros u Hu. eapply (lt_conf e p0 Ln full (c :: u0)); [exact HR| |exact EF|exact Hu]. apply Hsub. rewrite Ea. apply oa_here; auto.
    + exact A2.
    + exact A3.
    + exact A4.
    + pose proof (field_rest (c :: u0) rest' conf EF) as [g Eg].
      intros [cx2 [d2|]] [(B1 & B2 & B3) [B4 B5]]; cbn [fst snd] in *; [|cbn; split; auto; split; auto; eapply hstep_trans; eauto].
      eapply tpost_mono; [apply (IH cx2 d2 rest'); auto|].
      * intros w Hw. apply Hsub. rewrite Ea. eapply oa_behind; eauto.
      * apply (f_equal (@List.length _)) in Ea. apply (f_equal (@List.length _)) in Eg. rewrite !app_length in *. cbn [List.length] in *. lia.
      * intros ->. apply B5. reflexivity.
      * intros x [(C1 & C2 & C3) C4]. split; [|exact C4]. split; auto. eapply hstep_trans; [exact A1|]. eapply hstep_trans; eauto.
  - cbn. split; auto. split; auto. intros [=].
  - destruct (field_ub (c :: u0) u EF) as [-> HU]. cbn [tpost]. eapply (lt_unfinished e p0 Ln full); [exact HR| |exact HU]. apply Hsub. rewrite Ea. apply oa_here; auto.
Qed.

Lemma samp_trap rule cx dag tags : rule_of p0 Ln rule -> msafe cx -> okref (c_nodes cx) (Some dag) -> dt cx ->
  tpost trap (fun x => hstep cx x /\ msafe x /\ dt x) (addSampToTree e cx rule dag tags).
Proof.
  intros HR HM Hd HD. pose proof (addSamp_safe e cx rule dag tags HM Hd) as HS.
  assert (HT : tpost trap dt (addSampToTree e cx rule dag tags)).
  { unfold addSampToTree. eapply tpost_bind; [apply (add_rule_trap rule HR (S (List.length rule)) cx (Some dag) rule); auto; discriminate|].
    intros [cx1 [[en|]|]] [(A1 & A2 & A3) [A4 A5]]; cbn [fst snd] in *; [|apply A5; reflexivity|exact A4].
    destruct A3 as [n Hn]. rewrite (live_get _ _ _ Hn). cbn [ebind tpost]. destruct A4 as [A4|A4]; [left; apply quiet_data; auto|right; exact A4]. }
  destruct (addSampToTree e cx rule dag tags); cbn [tpost upost] in *; tauto.
Qed.

Lemma tags_trap : forall u cur b, match processTags u cur b with
  | EUb x => x = NullDeref /\ exists a c, u = a ++ L "," ++ c /\ ~ In ":"%char a /\ ((a = [] /\ cur = None) \/ exists a', a = a' ++ L ",")
  | EOk (Some (_, s)) => exists a, u = a ++ L ":" ++ s /\ ~ In ":"%char a
  | EOk None => True end.
Proof.
  induction u as [|c u IH]; intros cur b; cbn [processTags]; [exact I|]. destruct (ceq c ":") eqn:E1; [apply ceq_true in E1; subst c; exists []; split; [reflexivity|intros []]|].
  destruct (ceq c ",") eqn:E2.
  - destruct cur as [s|].
    + specialize (IH None (Some ((match b with Some l => l | None => [] end) ++ [JStr (drop_nul s)]))). apply ceq_true in E2. subst c.
      destruct (processTags u None _) as [[[tg t]|]|x]; [| |].
      * destruct IH as (a & -> & Ha). exists (","%char :: a). split; [reflexivity|]. intros [H|H]; [discriminate|auto].
      * exact I.
      * destruct IH as (-> & a & d & -> & Ha & HL). split; [reflexivity|]. exists (","%char :: a), d. split; [reflexivity|]. split; [intros [H|H]; [discriminate|auto]|].
        right. destruct HL as [[-> _]|[a' ->]]; [exists []; reflexivity|exists (","%char :: a'); reflexivity].
    + apply ceq_true in E2. subst c. split; [reflexivity|]. exists [], u. split; [reflexivity|]. split; [intros []|left; auto].
  - set (cur' := Some _). specialize (IH cur' b). apply ceq_false in E1.
    destruct (processTags u cur' b) as [[[tg t]|]|x].
    + destruct IH as (a & -> & Ha). exists (c :: a). split; [reflexivity|]. intros [H|H]; [congruence|auto].
    + exact I.
    + destruct IH as (-> & a & d & -> & Ha & HL). split; [reflexivity|]. exists (c :: a), d. split; [reflexivity|]. split; [intros [H|H]; [congruence|auto]|].
      right. destruct HL as [[_ HL]|[a' ->]]; [discriminate HL|exists (c :: a'); reflexivity].
Qed.

Definition pinv (cx : ctx) : Prop := match c_prefix cx with Some p => prefix_at p0 Ln p | None => p0 = None end.
Definition inv (cx : ctx) : Prop := msafe cx /\ dt cx /\ pinv cx /\ c_version cx = 2%N.
Lemma inv_hstep cx cx' : inv cx -> hstep cx cx' -> msafe cx' -> dt cx' -> inv cx'.
Proof. intros (_ & _ & A & B) [E _] HM HD. split; [exact HM|]. split; [exact HD|]. unfold pinv. rewrite E. auto. Qed.
Lemma inv_pos cx f l : inv cx -> inv (set_pos cx f l).
Proof. intros H. exact H. Qed.

Lemma rule_trap cx u : says Ln "rule" u -> inv cx -> tpost trap inv (processRule e cx u).
Proof.
  intros HL HI. unfold processRule. pose proof (tags_trap u None None) as HT. destruct (processTags u None None) as [[[tg t]|]|x]; cbn [ebind].
  - destruct HT as (a & -> & Ha). destruct t as [|c t]; [exact HI|]. pose proof HI as (HM & HD & HP & HV).
    eapply tpost_mono; [apply samp_trap|]; auto.
    + eapply ro_rule; [exact HL|exact Ha|]. unfold pinv in HP. destruct (c_prefix cx) as [p|]; [exact HP|apply pa_none; exact HP].
    + apply owner_ok; auto. left. reflexivity.
    + intros x (A & B & C). eapply inv_hstep; eauto.
  - exact HI.
  - destruct HT as (-> & a & c & -> & Ha & HC). cbn. eapply lt_tag; [exact HL|exact Ha|]. destruct HC as [[HC _]|HC]; auto.
Qed.
Lemma scan_not p : forall u, Forall (fun c => p c = true) (firstn (scan p u) u).
Proof. induction u as [|c u IH]; cbn [scan]; [constructor|]. destruct (p c) eqn:E; cbn [firstn]; constructor; auto. Qed.
Lemma scan_at p : forall u, scan p u < List.length u -> exists c, p c = false /\ skipn (scan p u) u = c :: skipn (S (scan p u)) u.
Proof. induction u as [|c u IH]; cbn [scan List.length]; intros H; [lia|]. destruct (p c) eqn:E; [destruct (IH ltac:(lia)) as (d & Hd & Ed); exists d; split; [exact Hd|]; exact Ed|]. exists c. split; [exact E|reflexivity]. Qed.
Lemma type_trap cx u : says Ln "type" u -> inv cx -> tpost trap inv (processType e cx u).
Proof.
  intros HL HI. unfold processType. destruct (getTypeName u) as [[nm [|c s]]|] eqn:EG; try exact HI. pose proof HI as (HM & HD & HP & HV).
  assert (HR : rule_of p0 Ln (c :: s)).
  { unfold getTypeName in EG. destruct (_ && _)%bool eqn:EB in EG; [|discriminate]. apply andb_true_iff in EB as [EB _]. apply andb_true_iff in EB as [_ EB]. apply Nat.ltb_lt in EB.
    apply scan_at in EB as (d & Hd & Ed). apply negb_false_iff in Hd. apply ceq_true in Hd. subst d. set (n := scan _ u) in *.
    assert (Es : skipn (S n) u = c :: s) by congruence. rewrite Es in Ed. eapply (ro_type _ _ (firstn n u) (c :: s)).
    - change (L ":" ++ c :: s) with (":"%char :: c :: s). rewrite <- Ed, firstn_skipn. exact HL.
    - intros Hin. pose proof (scan_not (fun c => negb (ceq c ":")) u) as HF. rewrite Forall_forall in HF. specialize (HF _ Hin). discriminate HF. }
  destruct (findType (c_types cx) nm 0) as [i|] eqn:EF.
  - apply findType_nth in EF as (j & d & -> & Hj). cbn [plus]. rewrite Hj.
    eapply tpost_mono; [apply samp_trap; auto|intros x (A & B & C); eapply inv_hstep; eauto].
    apply owner_ok; auto. right. apply nth_error_In in Hj. apply (in_map snd) in Hj. exact Hj.
  - unfold newPDAG. set (cx1 := set_types (set_nodes cx (c_nodes cx ++ [Some new_node])) (c_types cx ++ [(nm, List.length (c_nodes cx))])).
    assert (HM' : msafe cx1).
    { destruct HM as (G & rk & HG). exists G, (fresh_rank (List.length (c_nodes cx)) rk). cbn [c_nodes set_types set_nodes owners c_root c_types cx1].
      pose proof (s_gi _ _ _ _ _ _ _ _ _ (step_new _ _ _ True HG)) as H. eapply gi_perm; [|exact H].
      intros j. unfold owners, cx1. cbn [app c_root c_types set_types set_nodes]. rewrite map_app. cbn [map snd]. repeat (rewrite cnt_app || rewrite cnt_cons). cbn [count_occ]. lia. }
    assert (HI' : inv cx1). { split; [exact HM'|]. split; [|split; [exact HP|exact HV]]. destruct HD as [HD|HD]; [left; apply new_data; exact HD|right; exact HD]. }
    change (tpost trap inv (addSampToTree e cx1 (c :: s) (List.length (c_nodes cx)) None)).
    eapply tpost_mono; [apply samp_trap; auto; [|apply HI']|intros x (A & B & C); eapply inv_hstep; eauto].
    apply owner_ok; auto. right. unfold cx1. cbn [c_types set_types set_nodes]. rewrite map_app. apply in_or_app. right. left. reflexivity.
Qed.

Lemma op_smaller u o rest : getAnnotationOp u = AOps o rest -> exists a, u = a ++ rest /\ a <> [].
Proof.
  unfold getAnnotationOp. intros H. pose proof (skip_app (scan isspace u) u) as E0. destruct (skipn (scan isspace u) u) as [|c v]; [discriminate|].
  destruct (ceq c "#"); [injection H as <- <-; exists u; rewrite app_nil_r; split; [reflexivity|]; intros ->; destruct (firstn _ _) in E0; discriminate E0|].
  destruct (negb (ceq c "+")); [discriminate|]. destruct v as [|d v]; [discriminate|]. set (n := scan isFieldNameChar (d :: v)) in *.
  pose proof (skip_app n (d :: v)) as E1. destruct (skipn n (d :: v)) as [|c2 w]; [discriminate|]. destruct (negb (ceq c2 "=")); [discriminate|].
  pose proof (skip_app (scan isspace w) w) as E2. destruct (skipn (scan isspace w) w) as [|q w2]; [discriminate|]. destruct (negb _); [discriminate|].
  set (k := scan _ w2) in H. injection H as _ <-. pose proof (skip_app (S k) w2) as E3. exists ((firstn (scan isspace u) u ++ c :: firstn n (d :: v)) ++ c2 :: firstn (scan isspace w) w ++ q :: firstn (S k) w2).
  split; [|intros E; apply app_eq_nil in E as [_ E]; discriminate E].
  etransitivity; [exact E0|]. rewrite <- !app_assoc. f_equal. cbn [app]. f_equal. etransitivity; [exact E1|]. f_equal. cbn [app]. f_equal. rewrite <- app_assoc. etransitivity; [exact E2|]. f_equal. cbn [app]. f_equal. exact E3.
Qed.
Lemma op_stay u : u <> [] -> getAnnotationOp u = AStay -> exists v c, u = v ++ [c] /\ isspace c = true.
Proof.
  intros Hu. unfold getAnnotationOp. destruct (skipn (scan isspace u) u) as [|c v] eqn:E.
  - intros _. destruct (exists_last Hu) as (v & c & ->). exists v, c. split; [reflexivity|].
    assert (HF : Forall (fun c => isspace c = true) (v ++ [c])).
    { pose proof (scan_not isspace (v ++ [c])) as HF. pose proof (skip_app (scan isspace (v ++ [c])) (v ++ [c])) as E1. rewrite E, app_nil_r in E1. rewrite E1. exact HF. }
    apply Forall_app in HF as [_ HF]. inversion HF. auto.
  - destruct (ceq c "#"); [discriminate|]. destruct (negb _); [discriminate|]. destruct v as [|d v]; [discriminate|]. destruct (skipn _ (d :: v)) as [|c2 w]; [discriminate|]. destruct (negb _); [discriminate|].
    destruct (skipn _ w) as [|q w2]; [discriminate|]. destruct (negb _); discriminate.
Qed.
Lemma stay_loop u : u <> [] -> getAnnotationOp u = AStay -> forall f ops, annot_loop f u ops = EUb OutOfFuel.
Proof. intros Hu E. induction f as [|f IH]; intros ops; [reflexivity|]. cbn [annot_loop]. rewrite E. destruct u; [congruence|]. apply IH. Qed.
Lemma annot_trap full : forall f u ops, (exists a, full = a ++ u) -> List.length u < f -> match annot_loop f u ops with
  | EOk _ => True | EUb x => x = OutOfFuel /\ exists v c, full = v ++ [c] /\ isspace c = true end.
Proof.
  induction f as [|f IH]; intros u ops Hs Hf; [lia|]. cbn [annot_loop]. destruct u as [|c u]; [exact I|]. destruct (getAnnotationOp (c :: u)) as [| |o rest] eqn:E.
  - exact I.
  - rewrite (stay_loop (c :: u)) by (auto; discriminate). split; [reflexivity|]. apply op_stay in E as (v & d & E & Hd); [|discriminate]. destruct Hs as [a ->].
    exists (a ++ v), d. split; [|exact Hd]. rewrite <- app_assoc. f_equal. exact E.
  - assert (Hr : (exists a, full = a ++ rest) /\ List.length rest < f).
    { apply op_smaller in E as (a & E & Ha). destruct Hs as [b Hb]. split; [exists (b ++ a); rewrite <- app_assoc, <- E; exact Hb|].
      apply (f_equal (@List.length _)) in E. rewrite app_length in E. cbn [List.length] in E, Hf. destruct a; [congruence|]. cbn [List.length] in E. lia. }
    destruct Hr as [R1 R2]. destruct o as [o|]; apply IH; auto.
Qed.
Lemma annot_only : forall f u ops x, annot_loop f u ops = EUb x -> x = OutOfFuel.
Proof.
  induction f as [|f IH]; intros u ops x H; cbn [annot_loop] in H; [congruence|]. destruct u as [|c u]; [discriminate|].
  destruct (getAnnotationOp (c :: u)) as [| |[o|] rest]; try discriminate; eapply IH; eauto.
Qed.
Lemma annotate_trap (F : ub -> Prop) f cx u : (forall u, trap u -> F u) -> List.length u < f \/ F OutOfFuel -> says Ln "annotate" u -> inv cx -> tpost F inv (processAnnotate f cx u).
Proof.
  intros HF [Hf|Hf] HL HI.
  2:{ unfold processAnnotate. destruct (skipn _ _) as [|c v]; [exact HI|]. destruct (firstn _ _); [exact HI|]. destruct (negb _); [exact HI|].
      destruct (annot_loop f v []) as [[ops|]|x] eqn:E; [exact HI|exact HI|]. apply annot_only in E. subst x. exact Hf. } unfold processAnnotate. cbv zeta. set (n := scan isFieldNameChar u). pose proof (skip_app n u) as E1.
  pose proof (skip_app (scan isspace (skipn n u)) (skipn n u)) as E2. set (a := firstn (scan isspace (skipn n u)) (skipn n u)) in *. set (v := skipn (scan isspace (skipn n u)) (skipn n u)) in *. clearbody v a.
  destruct v as [|c v]; [exact HI|]. set (tag := firstn n u) in *. clearbody tag. destruct tag as [|t0 tag]; [exact HI|]. destruct (negb _); [exact HI|].
  assert (Eu : u = ((t0 :: tag) ++ a ++ [c]) ++ v). { etransitivity; [exact E1|]. rewrite E2, <- !app_assoc. reflexivity. }
  pose proof (annot_trap u f v []) as HA. destruct (annot_loop f v []) as [[ops|]|x]; cbn [ebind tpost]; try exact HI.
  destruct HA as (-> & w & d & E & Hd).
  - exists ((t0 :: tag) ++ a ++ [c]). exact Eu.
  - apply (f_equal (@List.length _)) in Eu. rewrite app_length in Eu. lia.
  - apply HF. eapply (lt_annotate e p0 Ln w d); [rewrite <- E; exact HL|exact Hd].
Qed.

Lemma lineType_says line ty u k : getLineType line = Some (ty, u) -> text_eqb ty (L k) = true -> Ln line -> says Ln k u.
Proof.
  unfold getLineType. set (n := scan _ line). intros H Hk HL. assert (Et : firstn n line = ty /\ skipn (S n) line = u) by (destruct (firstn n line); [discriminate|]; split; congruence).
  destruct Et as [<- <-]. apply text_eqb_true in Hk. destruct (Nat.ltb_spec n (List.length line)) as [HH|HH].
  - left. apply scan_at in HH as (c & Hc & Ec). apply negb_false_iff in Hc. apply ceq_true in Hc. subst c. fold n in Ec.
    change (L "=" ++ skipn (S n) line) with ("="%char :: skipn (S n) line). rewrite <- Ec, <- Hk, firstn_skipn. exact HL.
  - right. split; [apply skipn_all2; lia|]. rewrite <- Hk, firstn_all2 by lia. exact HL.
Qed.

(** [F]: the ways an included file may fail *)
Lemma line_trap (F : ub -> Prop) load af cx line : (forall u, trap u -> F u) ->
  (forall cx f u, inv cx -> line = L "include=" ++ u -> names_file u f -> tpost F (fun x => inv (fst x)) (load cx f)) ->
  List.length line < af \/ F OutOfFuel -> Ln line -> inv cx -> tpost F (fun x => inv (fst x)) (processSamp e load af cx line).
Proof.
  intros HF HLd Haf HL HI. unfold processSamp. destruct (getLineType line) as [[ty u]|] eqn:EG; [|exact HI].
  assert (Hlen : List.length u <= List.length line). { unfold getLineType in EG. set (k := scan _ line) in EG. assert (E : skipn (S k) line = u) by (destruct (firstn k line) in EG; [discriminate|congruence]). rewrite <- E, skipn_length. lia. }
  assert (W : forall A (Q : A -> Prop) x, tpost trap Q x -> tpost F Q x) by (intros A Q [a|x]; cbn; auto).
  pose proof HI as (HM & HD & HP & HV).
  destruct (text_eqb ty (L "prefix")) eqn:K1. { cbn. split; [exact HM|]. split; [exact HD|]. split; [|exact HV]. cbn. apply pa_set. eapply lineType_says; eauto. }
  destruct (text_eqb ty (L "extendprefix")) eqn:K2.
  { unfold pinv in HP. destruct (c_prefix cx) as [p|] eqn:EP.
    - cbn. split; [exact HM|]. split; [exact HD|]. split; [|exact HV]. cbn. apply pa_extend; [exact HP|]. eapply lineType_says; eauto.
    - apply HF. eapply lt_extend; [exact HP|eapply lineType_says; eauto]. }
  destruct (text_eqb ty (L "rule")) eqn:K3. { eapply tpost_bind; [apply W; apply rule_trap; [eapply lineType_says; eauto|exact HI]|]. intros cx' H'. exact H'. }
  destruct (text_eqb ty (L "type")) eqn:K4. { eapply tpost_bind; [apply W; apply type_trap; [eapply lineType_says; eauto|exact HI]|]. intros cx' H'. exact H'. }
  destruct (text_eqb ty (L "annotate")) eqn:K5. { eapply tpost_bind; [apply annotate_trap; [exact HF|destruct Haf; [left; lia|right; assumption]|eapply lineType_says; eauto|exact HI]|]. intros cx' H'. exact H'. }
  destruct (text_eqb ty (L "include")) eqn:K6; [|exact HI].
  unfold include_name. pose proof (lineType_says _ _ _ "include" EG K6 HL) as HS.
  destruct (cstr u) as [|c t] eqn:EC.
  - cbn. apply HF. eapply lt_include; [exact HS|]. destruct u as [|d u]; [left; reflexivity|]. right. cbn [cstr] in EC. destruct (ceq d NUL) eqn:Ed; [|discriminate]. apply ceq_true in Ed. subst d. eauto.
  - cbn [ebind]. set (f := cstr (c :: map _ t)).
    assert (Hu : names_file u f).
    { destruct u as [|d u]; [discriminate|]. cbn [cstr] in EC. destruct (ceq d NUL) eqn:Ed; [discriminate|]. injection EC as -> Et. unfold f. cbn [cstr]. rewrite Ed. apply ceq_false in Ed.
      exists c, (cstr (map (fun c => if isspace c then NUL else c) t)). subst t. clear f K6 HS K1 K2 K3 K4 K5 EG Hlen.
      assert (X : exists r, u = cstr (map (fun c => if isspace c then NUL else c) (cstr u)) ++ r /\ Forall (fun x => isspace x = false /\ x <> NUL) (cstr (map (fun c => if isspace c then NUL else c) (cstr u))) /\ (r = [] \/ exists x r', r = x :: r' /\ (isspace x = true \/ x = NUL))).
      { induction u as [|d u (r & IH1 & IH2 & IH3)]; [exists []; cbn; auto|]. cbn [cstr]. destruct (ceq d NUL) eqn:E1.
        - apply ceq_true in E1. subst d. exists (NUL :: u). cbn. split; [reflexivity|]. split; [constructor|]. right. eauto.
        - cbn [map]. destruct (isspace d) eqn:E2; cbn [cstr].
          + exists (d :: u). change (ceq NUL NUL) with true. cbn. split; [reflexivity|]. split; [constructor|]. right. eauto.
          + rewrite E1. exists r. cbn [app]. split; [f_equal; exact IH1|]. split; [|exact IH3]. constructor; [|exact IH2]. split; [exact E2|]. apply ceq_false. exact E1. }
      destruct X as (r & X1 & X2 & X3). exists r. split; [reflexivity|]. split; [cbn [app]; f_equal; exact X1|]. auto. }
    assert (Hline : line = L "include=" ++ u).
    { unfold getLineType in EG. set (n := scan _ line) in EG. assert (Et : firstn n line = ty /\ skipn (S n) line = u) by (destruct (firstn n line); [discriminate|]; split; congruence).
      destruct Et as [<- E2]. apply text_eqb_true in K6. destruct (Nat.ltb_spec n (List.length line)) as [HH|HH].
      - apply scan_at in HH as (d & Hd & Ed). apply negb_false_iff in Hd. apply ceq_true in Hd. subst d. fold n in Ed. rewrite E2 in Ed.
        change (L "include=" ++ u) with (L "include" ++ "="%char :: u). rewrite <- Ed, <- K6, firstn_skipn. reflexivity.
      - rewrite skipn_all2 in E2 by lia. subst u. discriminate EC. }
    eapply tpost_bind; [eapply HLd; eauto|]. intros [cx' ok] H'. exact H'.
Qed.

(** ** Reading lines *)
Record reading (t a w inp buf : text) (cnt : N) (ip : bool) : Prop := mk_reading {
  r_text : t = a ++ w ++ inp;
  r_start : line_start a \/ (w = [] /\ inp = []);
  r_buf : rev buf = filter (fun c => negb (ceq c feed)) w;
  r_cnt : cnt = N.of_nat (List.length buf);
  r_ip : ip = Nat.odd (count_occ ascii_dec w "%"%char);
  r_head : w = [] \/ exists c w', w = c :: w' /\ c <> "#"%char /\ c <> feed;
  r_lf : forall w1 w2, w = w1 ++ feed :: w2 -> in_field w1 }.
Lemma reading_new t a inp : t = a ++ inp -> line_start a \/ inp = [] -> reading t a [] inp [] 0 false.
Proof. intros E H. split; auto; [tauto|]. intros [|? ?] w2 K; discriminate K. Qed.
Lemma reading_buf t a w inp buf cnt ip : reading t a w inp buf cnt ip -> (buf = [] <-> w = []).
Proof.
  intros [_ _ H _ _ Hh _]. split; intros ->.
  - destruct Hh as [Hh|(c & w' & -> & _ & Hc)]; [exact Hh|]. cbn [filter rev] in H. apply ceq_false in Hc. rewrite Hc in H. discriminate H.
  - cbn in H. apply (f_equal (@rev _)) in H. rewrite rev_involutive in H. exact H.
Qed.
Lemma reading_line t a w inp buf cnt ip : reading t a w inp buf cnt ip -> buf <> [] -> line_end inp -> a_line_of t (rev buf).
Proof.
  intros H Hb He. pose proof (reading_buf _ _ _ _ _ _ _ H) as HB. assert (Hw : w <> []) by tauto. destruct H as [H1 H2 H3 H4 H5 H6 H7].
  exists a, w, inp. split; [exact H1|]. split; [tauto|]. split; [exact He|]. split; [exact H3|]. split; [tauto|exact H7].
Qed.
Lemma skip_line_spec : forall inp, exists x, inp = x ++ skip_line inp /\ (skip_line inp = [] \/ exists x', x = x' ++ [feed]).
Proof.
  induction inp as [|c inp (x & E & H)]; [exists []; auto|]. cbn [skip_line]. destruct (ceq c (chr 10)) eqn:Ec.
  - exists [c]. split; [reflexivity|]. right. exists []. apply ceq_true in Ec. subst c. reflexivity.
  - exists (c :: x). split; [cbn; f_equal; exact E|]. destruct H as [H|[x' ->]]; [auto|right; exists (c :: x'); reflexivity].
Qed.
Definition further (t inp inp' : text) : Prop := (exists a, t = a ++ inp' /\ line_start a) /\ List.length inp' < List.length inp.
Lemma further_le t inp inp' inp2 : further t inp inp' -> List.length inp <= List.length inp2 -> further t inp2 inp'.
Proof. intros [A B] H. split; [exact A|lia]. Qed.

Lemma read_trap isf t : forall fuel inp a w buf cnt ip ln, reading t a w inp buf cnt ip -> List.length inp < fuel ->
  match sampRead e fuel isf inp buf cnt ip ln with
  | RFuel => False
  | RTooLong inp' _ => further t inp inp'
  | RR (RNone _ _) => True
  | RR (RLine line inp' eof _) => a_line_of t line /\ (eof = false -> further t inp inp') end.
Proof.
  induction fuel as [|f IH]; intros inp a w buf cnt ip ln H Hf; [lia|]. cbn [sampRead].
  destruct inp as [|c inp].
  - destruct buf as [|b buf]; [exact I|]. split; [|discriminate]. eapply (reading_line _ _ _ _ (b :: buf)); [exact H|discriminate|left; reflexivity].
  - cbn [List.length] in Hf. pose proof (reading_buf _ _ _ _ _ _ _ H) as HB.
    assert (W : forall r, match r with RFuel => False | RTooLong inp' _ => further t inp inp' | RR (RNone _ _) => True
        | RR (RLine line inp' eof _) => a_line_of t line /\ (eof = false -> further t inp inp') end ->
      match r with RFuel => False | RTooLong inp' _ => further t (c :: inp) inp' | RR (RNone _ _) => True
        | RR (RLine line inp' eof _) => a_line_of t line /\ (eof = false -> further t (c :: inp) inp') end).
    { intros [[line inp' eof l|? ?]|inp' l|] HW; auto; [destruct HW as [H1 H2]; split; [exact H1|]; intros He|]; (eapply further_le; [eauto|cbn [List.length]; lia]). }
    assert (W2 : forall r inp2, List.length inp2 <= List.length inp -> match r with RFuel => False | RTooLong inp' _ => further t inp2 inp' | RR (RNone _ _) => True
        | RR (RLine line inp' eof _) => a_line_of t line /\ (eof = false -> further t inp2 inp') end ->
      match r with RFuel => False | RTooLong inp' _ => further t (c :: inp) inp' | RR (RNone _ _) => True
        | RR (RLine line inp' eof _) => a_line_of t line /\ (eof = false -> further t (c :: inp) inp') end).
    { intros [[line inp' eof l|? ?]|inp' l|] inp2 Hi HW; auto; [destruct HW as [H1 H2]; split; [exact H1|]; intros He|]; (eapply further_le; [eauto|cbn [List.length]; lia]). }
    destruct (is_eof_char e isf c) eqn:Ee.
    { destruct buf as [|b buf]; [exact I|]. split; [|discriminate]. eapply (reading_line _ _ _ _ (b :: buf)); [exact H|discriminate|]. right. right. exists inp.
      unfold is_eof_char in Ee. apply andb_true_iff in Ee as [_ Ee]. apply ceq_true in Ee. subst c. reflexivity. }
    pose proof H as [H1 H2 H3 H4 H5 H6 H7]. assert (HS : line_start a) by (destruct H2 as [H2|[_ H2]]; [exact H2|discriminate]).
    destruct (ceq c (chr 10)) eqn:El.
    + apply ceq_true in El. subst c. cbv zeta. set (ln' := ((ln + 1) mod 2 ^ 32)%N).
      assert (HN : reading t (a ++ w ++ [feed]) [] inp [] 0 false).
      { apply reading_new; [rewrite <- !app_assoc; exact H1|]. left. right. left. exists (a ++ w). rewrite <- app_assoc. reflexivity. }
      destruct (ip && isf && runaway (S (List.length inp)) inp)%bool eqn:Er.
      { cbn [negb andb]. rewrite andb_false_r. apply W. apply (IH _ _ _ _ _ _ _ HN). lia. }
      cbn [negb andb]. rewrite andb_true_r. destruct buf as [|b buf].
      { assert (Ew : w = []) by tauto. subst w. apply W. cbn in H5. subst ip. assert (Ec : cnt = 0%N) by (rewrite H4; reflexivity). subst cnt. apply (IH _ _ _ _ _ _ _ HN). lia. }
      destruct ip.
      { apply W. apply (IH _ a (w ++ [feed])); [|lia]. split.
        - rewrite <- app_assoc. exact H1.
        - left. exact HS.
        - rewrite filter_app. cbn [filter]. change (ceq feed feed) with true. cbn [negb]. rewrite app_nil_r. exact H3.
        - exact H4.
        - rewrite count_occ_app. change (count_occ ascii_dec [feed] "%"%char) with 0. rewrite Nat.add_0_r. exact H5.
        - right. destruct H6 as [H6|(c & w' & -> & H6)]; [exfalso; destruct HB as [_ HB]; discriminate (HB H6)|]. exists c, (w' ++ [feed]). split; [reflexivity|exact H6].
        - intros w1 w2 Hw. destruct w2 as [|d w2 _] using rev_ind.
          + apply app_inj_tail in Hw as [Hw _]. subst w1. symmetry. exact H5.
          + rewrite app_comm_cons, app_assoc in Hw. apply app_inj_tail in Hw as [Hw _]. eapply H7. exact Hw. }
      split; [eapply (reading_line _ _ _ _ (b :: buf)); [exact H|discriminate|right; left; exists inp; reflexivity]|].
      intros _. split; [|cbn [List.length]; lia]. exists (a ++ w ++ [feed]). split; [rewrite <- !app_assoc; exact H1|]. right. left. exists (a ++ w). rewrite <- app_assoc. reflexivity.
    + destruct (ceq c "#" && match buf with [] => true | _ => false end)%bool eqn:Ec.
      * apply andb_true_iff in Ec as [_ Ec]. destruct buf as [|b buf]; [|discriminate]. assert (Ew : w = []) by tauto. subst w. cbn in H5. subst ip.
        destruct (skip_line_spec inp) as (x & Ex & Hx). assert (Hl : List.length (skip_line inp) <= List.length inp) by (rewrite Ex at 2; rewrite app_length; lia).
        apply (W2 _ (skip_line inp) Hl). apply (IH _ (a ++ c :: x) []); [|lia]. apply reading_new.
        -- rewrite <- app_assoc. cbn [app]. rewrite <- Ex. exact H1.
        -- destruct Hx as [Hx|[x' ->]]; [right; exact Hx|left; right; left; exists (a ++ c :: x'); rewrite <- app_assoc; reflexivity].
      * cbv zeta. assert (Hw : t = (a ++ w ++ [c]) ++ inp) by (rewrite <- !app_assoc; exact H1).
        destruct (N.leb (64 * 1024) (cnt + 1)) eqn:E64.
        -- split; [|cbn [List.length]; lia]. exists (a ++ w ++ [c]). split; [exact Hw|]. right. right. rewrite !app_length. cbn [List.length].
           assert (List.length buf <= List.length w). { apply (f_equal (@List.length _)) in H3. rewrite rev_length in H3. rewrite H3. clear. induction w as [|d w IHw]; cbn [filter List.length]; [lia|]. destruct (negb _); cbn [List.length]; lia. }
           apply N.leb_le in E64. lia.
        -- apply W. apply (IH _ a (w ++ [c])); [|lia]. split.
           ++ rewrite <- app_assoc. exact H1.
           ++ left. exact HS.
           ++ rewrite filter_app. cbn [filter rev]. change (ceq c feed) with (ceq c (chr 10)). rewrite El. cbn [negb]. rewrite H3. reflexivity.
           ++ rewrite H4. cbn [List.length]. lia.
           ++ rewrite count_occ_app, H5. cbn [count_occ]. destruct (ascii_dec c "%") as [->|Hc].
              ** change (ceq "%" "%") with true. cbv iota. rewrite Nat.add_1_r, Nat.odd_succ, <- Nat.negb_odd. reflexivity.
              ** rewrite (proj2 (ceq_false c "%") Hc), Nat.add_0_r. reflexivity.
           ++ right. destruct w as [|d w].
              ** assert (Eb : buf = []) by tauto. subst buf. rewrite andb_true_r in Ec. exists c, []. split; [reflexivity|]. split; apply ceq_false; [exact Ec|exact El].
              ** destruct H6 as [H6|(d' & w' & E & H6)]; [discriminate|]. injection E as -> ->. exists d', (w' ++ [c]). split; [reflexivity|exact H6].
           ++ intros w1 w2 Hw2. destruct w2 as [|d w2 _] using rev_ind.
              ** apply app_inj_tail in Hw2 as [_ Hw2]. apply ceq_false in El. contradiction.
              ** rewrite app_comm_cons, app_assoc in Hw2. apply app_inj_tail in Hw2 as [Hw2 _]. eapply H7. exact Hw2.
Qed.

Lemma lines_trap (F : ub -> Prop) load af isf t : (forall u, trap u -> F u) -> (forall line, a_line_of t line -> Ln line) ->
  (forall cx f u, inv cx -> a_line_of t (L "include=" ++ u) -> names_file u f -> tpost F (fun x => inv (fst x)) (load cx f)) ->
  List.length t < af \/ F OutOfFuel ->
  forall fuel cx inp, (exists a, t = a ++ inp /\ line_start a) -> List.length inp < fuel -> inv cx -> tpost F (fun x => inv (fst x)) (load_lines e load af fuel isf cx inp).
Proof.
  intros HF HL HLd Haf. induction fuel as [|f IH]; intros cx inp Hs Hf HI; [lia|]. cbn [load_lines].
  destruct Hs as (a & Ht & Ha). pose proof (read_trap isf t (S (S (List.length inp))) inp a [] [] 0 false (c_line cx) (reading_new _ _ _ Ht (or_introl Ha)) ltac:(lia)) as HR.
  destruct (sampRead e _ isf inp [] 0 false (c_line cx)) as [[line inp' eof ln|inp' ln]|inp' ln|].
  - destruct HR as [R1 R2]. eapply tpost_bind; [apply (line_trap F load af (set_pos cx (c_file cx) ln) line HF)|].
    + intros cx1 f1 u HI1 -> Hn. eapply HLd; eauto.
    + destruct Haf as [Haf|Haf]; [left|right; exact Haf]. destruct R1 as (b & w & d & E & _ & _ & -> & _). eapply Nat.le_lt_trans; [|exact Haf]. rewrite E, !app_length.
      assert (X : forall w : text, List.length (filter (fun c => negb (ceq c feed)) w) <= List.length w) by (clear; induction w as [|c w IHw]; cbn [filter List.length]; [lia|]; destruct (negb _); cbn [List.length]; lia).
      specialize (X w). lia.
    + apply HL. exact R1.
    + exact HI.
    + intros [cx1 ok] H1. destruct (negb ok); [exact H1|]. destruct eof; [exact H1|]. destruct (R2 eq_refl) as [R3 R4]. apply IH; [exact R3|lia|exact H1].
  - exact HI.
  - destruct HR as [R3 R4]. apply IH; [exact R3|lia|exact HI].
  - destruct HR.
Qed.
End TL.
