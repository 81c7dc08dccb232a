(** * OneLoad: adding the fields of a rule to an empty place gives a chain. *)
From Verif Require Import Base Time Parsers Engine Pdag Samp EngineSpec EngineSpec2 GraphSpec RuleSpec BuiltSpec OneSpec BaseFacts FieldFacts EngineFacts EngineFacts2 EngineFacts3 EngineGen HeapFacts BuildFacts2 BuildFacts3 OptTotal RuleFacts TreeFacts OptSem OneFacts OneEngine.
From Verif Require Import AnnotFacts TypeFacts LoadTop LoadTop2.
From Coq Require Import ZifyBool ZifyNat ZifyN.

Definition blank_node (n : node) : Prop := n_parsers n = [] /\ n_term n = false.

Scheme rep_mut := Minimality for rep Sort Prop
with den_mut := Minimality for den Sort Prop.

(** chains stay if only blank nodes change *)
Lemma rep_frame h h' ts : (forall i n, live h i n -> ~ blank_node n -> live h' i n) ->
  (forall i l, rep h ts i l -> rep h' ts i l) /\ (forall k f, den h ts k f -> den h' ts k f).
Proof.
  intros HL. unfold blank_node in HL.
  assert (HI : forall i, inner_ok h i -> inner_ok h' i). { intros i (n & p & A & B). exists n, p. split; auto. apply HL; auto. rewrite B. intros [? _]. discriminate. }
  assert (R1 : forall i n, live h i n -> n_parsers n = [] -> n_term n = true -> rep h' ts i []).
  { intros i n A B C. eapply rep_end; eauto. apply HL; auto. rewrite C. intros [_ ?]. discriminate. }
  assert (R2 : forall i n p f l, live h i n -> n_parsers n = [p] -> n_term n = false -> den h ts (p_kind p) f -> den h' ts (p_kind p) f -> rep h ts (p_child p) l -> rep h' ts (p_child p) l -> rep h' ts i (chop (f, p_name p) ++ l)).
  { intros i n p f l A B C _ D _ E. eapply rep_step; eauto. apply HL; auto. rewrite B. intros [? _]. discriminate. }
  assert (R3 : forall m, lits_ok (RPlain m) -> den h' ts (KSimple m) (RPlain m)) by (intros; apply den_simple; auto).
  assert (R4 : forall ti T tn, nth_error ts ti = Some (T, tn) -> den h' ts (KCustom ti) (RType T)) by (intros; eapply den_custom; eauto).
  assert (R5 : forall pn wn permit ps ws, inner_ok h pn -> inner_ok h wn -> Forall (fun f => lits_ok (fst f)) ps -> Forall (fun f => lits_ok (fst f)) ws ->
    rep h ts pn (norm ps) -> rep h' ts pn (norm ps) -> rep h ts wn (norm ws) -> rep h' ts wn (norm ws) -> den h' ts (KRepeat pn wn permit) (RRepeat ps ws permit)).
  { intros. apply den_repeat; auto. }
  split; [apply (rep_mut h ts (rep h' ts) (den h' ts)); auto|apply (den_mut h ts (rep h' ts) (den h' ts)); auto].
Qed.

(** a chain that is not finished *)
Inductive seg (h : list (option node)) (ts : list (text * nat)) : nat -> rfields -> nat -> Prop :=
| seg_nil : forall i n, live h i n -> blank_node n -> seg h ts i [] i
| seg_step : forall i n p f l en, live h i n -> n_parsers n = [p] -> n_term n = false -> den h ts (p_kind p) f -> seg h ts (p_child p) l en ->
    seg h ts i (chop (f, p_name p) ++ l) en.
Lemma seg_end h ts i l en : seg h ts i l en -> exists n, live h en n /\ blank_node n.
Proof. induction 1; eauto. Qed.
Lemma seg_frame h h' ts : (forall i n, live h i n -> ~ blank_node n -> live h' i n) -> forall i l en l2 en2, seg h ts i l en -> seg h' ts en l2 en2 -> seg h' ts i (l ++ l2) en2.
Proof.
  intros HL i l en l2 en2 H. induction H as [i n A B|i n p f l en A B C D E IH]; intros H2; [exact H2|].
  rewrite <- app_assoc. eapply seg_step; [|exact B|exact C| |apply IH; exact H2].
  - apply HL; auto. unfold blank_node. rewrite B. intros [? _]. discriminate.
  - apply (rep_frame h h' ts HL). exact D.
Qed.
Lemma seg_rep h ts f i l en : (forall n, n_parsers (f n) = n_parsers n /\ n_term (f n) = true) -> seg h ts i l en -> rep (upd_node h en f) ts i l.
Proof.
  intros Hf H. destruct (seg_end _ _ _ _ _ H) as (m & Hm & Bm).
  assert (HL : forall j n, live h j n -> ~ blank_node n -> live (upd_node h en f) j n).
  { intros j n Hj Hb. apply live_upd. left. split; auto. intros <-. apply Hb. replace n with m by (eapply live_fun; eauto). exact Bm. }
  induction H as [i n A B|i n p g l en A B C D E IH].
  - eapply rep_end; [apply live_upd_same; exact A|rewrite (proj1 (Hf n)); exact (proj1 B)|apply Hf].
  - eapply rep_step; [|exact B|exact C| |apply IH; auto].
    + apply HL; auto. unfold blank_node. rewrite B. intros [? _]. discriminate.
    + apply (rep_frame h _ ts HL). exact D.
Qed.
Inductive lin (h : list (option node)) : nat -> list prs -> nat -> Prop :=
| lin_end : forall i n, live h i n -> n_parsers n = [] -> n_term n = true -> lin h i [] i
| lin_step : forall i n p ps en, live h i n -> n_parsers n = [p] -> n_term n = false -> lin h (p_child p) ps en -> lin h i (p :: ps) en.
Lemma seg_lin h ts f i l en : (forall n, n_parsers (f n) = n_parsers n /\ n_term (f n) = true) -> seg h ts i l en -> exists ps, lin (upd_node h en f) i ps en.
Proof.
  intros Hf H. destruct (seg_end _ _ _ _ _ H) as (m & Hm & Bm).
  induction H as [i n A B|i n p g l en A B C D E IH].
  - exists []. eapply lin_end; [apply live_upd_same; exact A|rewrite (proj1 (Hf n)); exact (proj1 B)|apply Hf].
  - destruct (IH Hm) as [ps HL]. exists (p :: ps). eapply lin_step; [|exact B|exact C|exact HL]. apply live_upd. left. split; auto. intros <-. assert (n = m) by (eapply live_fun; eauto). subst n. destruct Bm as [Bm _]. congruence.
Qed.
Lemma inner_frame h h' i : (forall i n, live h i n -> ~ blank_node n -> live h' i n) -> inner_ok h i -> inner_ok h' i.
Proof. intros HL (n & p & A & B). exists n, p. split; auto. apply HL; auto. unfold blank_node. rewrite B. intros [? _]. discriminate. Qed.

Record grows (h : list (option node)) (d : option nat) (h' : list (option node)) : Prop := {
  g_keep : forall i n, live h i n -> Some i <> d -> live h' i n;
  g_len : List.length h <= List.length h';
  g_data : all_data h -> all_data h' }.
Lemma grows_refl h d : grows h d h. Proof. constructor; auto. Qed.
Lemma grows_some h d h' : grows h None h' -> grows h (Some d) h'.
Proof. intros [A B C]. constructor; auto. intros i n H _. apply A; auto. discriminate. Qed.
Lemma grows_trans h d h1 en h2 : grows h (Some d) h1 -> grows h1 (Some en) h2 -> en = d \/ List.length h <= en -> grows h (Some d) h2.
Proof.
  intros [A1 A2 A3] [B1 B2 B3] HE. constructor; auto; [|lia]. intros i n Hi Hne. apply B1; auto. intros [= ->]. destruct HE as [->|HE]; [congruence|]. apply live_lt in Hi. lia.
Qed.
Lemma grows_none_trans h h1 d h2 : grows h None h1 -> grows h1 (Some d) h2 -> List.length h <= d -> grows h None h2.
Proof. intros [A1 A2 A3] [B1 B2 B3] HE. constructor; auto; [|lia]. intros i n Hi _. apply B1; [apply A1; auto; discriminate|]. intros [= ->]. apply live_lt in Hi. lia. Qed.
Lemma grows_none_none h h1 h2 : grows h None h1 -> grows h1 None h2 -> grows h None h2.
Proof. intros [A1 A2 A3] [B1 B2 B3]. constructor; auto. lia. Qed.
Lemma new_blank : blank_node new_node. Proof. split; reflexivity. Qed.
Lemma grows_new h : grows h None (h ++ [Some new_node]).
Proof.
  constructor; [intros; apply live_app; auto|rewrite app_length; lia|].
  intros H i n p Hn Hp. apply live_app in Hn as [Hn|[_ [= <-]]]; [eauto|destruct Hp].
Qed.
Lemma grows_quiet h i f : (forall n, n_parsers (f n) = n_parsers n) -> grows h (Some i) (upd_node h i f).
Proof.
  intros Hf. constructor; [intros j n Hj Hne; apply live_upd; left; split; auto; congruence|unfold upd_node; rewrite upd_nth_length; auto|].
  intros H j n p Hn Hp. apply live_upd in Hn as [[_ Hn]|[<- (n0 & Hn & ->)]]; [eauto|]. rewrite Hf in Hp. eauto.
Qed.
Lemma keep_blank h d h' n : grows h (Some d) h' -> live h d n -> blank_node n -> forall i m, live h i m -> ~ blank_node m -> live h' i m.
Proof. intros [A _ _] Hd Hb i m Hi Hm. apply A; auto. intros [= ->]. apply Hm. replace m with n by (eapply live_fun; eauto). exact Hb. Qed.
Lemma keep_none h h' : grows h None h' -> forall i m, live h i m -> ~ blank_node m -> live h' i m.
Proof. intros [A _ _] i m Hi Hm. apply A; auto. discriminate. Qed.

Section Add.
Variable e : env.
Hypothesis HE : prints_no_nul e.

Lemma flat_name ts conf k nm : flat_field e ts conf = Some (k, nm) ->
  match jget conf "name" with
  | None | Some JNull => nm = None
  | Some v => exists s, need_str e v = EOk s /\ nm = if text_eqb s (L "-") then None else Some s
  end.
Proof.
  unfold flat_field. set (cx := set_types _ ts). destruct (newParser e _ cx conf) as [[c [p|]]|] eqn:EP; try discriminate. intros H.
  assert (EN : p_name p = nm) by (destruct (p_kind p) as [[]| |]; congruence). clear H. unfold newParser in EP. destruct (jget conf "type") as [tv|]; [|discriminate]. destruct tv; try discriminate;
  apply ebind_ok in EP as (typ & _ & EP); cbv zeta in EP; (match type of EP with (if ?b then _ else _) = _ => destruct b; [discriminate|] end);
  apply ebind_ok in EP as (name & EName & EP); apply ebind_ok in EP as ([[cx1 k1] prio] & _ & EP); injection EP as _ <-; cbn [p_name] in EN; subst name;
  (destruct (jget conf "name") as [v|]; [|congruence]; destruct v; try congruence; apply ebind_ok in EName as (s1 & E1 & E2); exists s1; split; auto; congruence).
Qed.
Lemma is_dot_flat ts conf k nm : flat_field e ts conf = Some (k, nm) -> nm <> Some (L ".") -> is_dot e conf = EOk 0.
Proof.
  intros H HN. apply flat_name in H. unfold is_dot. destruct (jget conf "name") as [v|]; [|reflexivity].
  destruct v; try reflexivity; destruct H as (s1 & -> & ->); cbn [ebind]; (destruct (text_eqb s1 (L ".")) eqn:E; [|reflexivity]; apply text_eqb_true in E; subst s1; destruct HN; reflexivity).
Qed.
Lemma is_dot_ok ts conf f : reads_field e ts conf f -> (exists d, is_dot e conf = EOk d) /\ (snd f <> Some (L ".") -> is_dot e conf = EOk 0).
Proof.
  intros H. assert (HN : (exists k, flat_field e (known ts) conf = Some (k, snd f)) \/ exists l, conf = JObj l /\ named_as l (snd f)).
  { destruct H as [conf m nm H|conf ti T nm H _|l nm pv wv ps ws permit _ _ H _ _ _ _ _ _]; cbn; eauto. }
  destruct HN as [[k HF]|(l & -> & HN)].
  - split; [|apply (is_dot_flat (known ts) _ k); exact HF]. apply flat_name in HF. unfold is_dot. destruct (jget conf "name") as [v|]; [|eauto].
    destruct v; try (eexists; reflexivity); destruct HF as (s1 & -> & _); cbn; eauto.
  - unfold is_dot, named_as in *. cbn [jget]. destruct (obj_get l (L "name")) as [v|]; [|split; [eexists; reflexivity|reflexivity]].
    destruct v; try tauto. destruct HN as [Hs ->]. unfold need_str, jstring. rewrite cstr_id by auto. cbn [ebind]. split; [eauto|]. destruct (text_eqb s (L ".")) eqn:E; [|reflexivity].
    apply text_eqb_true in E. subst s. intros HH. destruct HH. reflexivity.
Qed.
Lemma count_ok ts l fs : reads_all e ts l fs -> (exists d, count_dots e l = EOk d) /\ (~ In (Some (L ".")) (map snd fs) -> count_dots e l = EOk 0).
Proof.
  induction 1 as [|c l f fs H HA [[d Hd] IH]]; cbn [count_dots]; [split; eauto|]. destruct (is_dot_ok _ _ _ H) as [[a Ha] HZ].
  split; [rewrite Ha, Hd; cbn; eauto|]. cbn [map In]. intros HN. rewrite HZ, IH by tauto. reflexivity.
Qed.
Lemma reads_field_obj ts c f : reads_field e ts c f -> exists l, c = JObj l.
Proof. intros H. destruct H; eauto; destruct (flat_obj e (known ts) conf _ _ H) as (l & _ & _ & -> & _); eauto. Qed.
Lemma reads_all_len ts l fs : reads_all e ts l fs -> List.length fs = List.length l.
Proof. induction 1; cbn; auto. Qed.
Lemma chk_ok ts v fs : reads e ts v fs -> (2 <= List.length fs -> ~ In (Some (L ".")) (map snd fs)) -> chkNoDupeDot e v = EOk true.
Proof.
  intros H HD. destruct H as [c f H|c l f fs Hc HA].
  - destruct (reads_field_obj _ _ _ H) as [l ->]. reflexivity.
  - unfold chkNoDupeDot. destruct (count_ok ts (c :: l) (f :: fs)) as [[d Hd] HZ]; [constructor; auto|]. destruct l as [|c2 l].
    + rewrite Hd. reflexivity.
    + rewrite HZ; [reflexivity|]. apply HD. pose proof (reads_all_len _ _ _ HA) as HL. cbn in HL |- *. lia.
Qed.

Lemma text_eqb_sym a b : text_eqb a b = text_eqb b a.
Proof. destruct (text_eqb a b) eqn:E, (text_eqb b a) eqn:E2; auto; [apply text_eqb_true in E; subst; rewrite text_eqb_refl in E2; discriminate|apply text_eqb_true in E2; subst; rewrite text_eqb_refl in E; discriminate]. Qed.
(** literals *)
Lemma field_lits ts c f : reads_field e ts c f -> lits_ok (fst f).
Proof.
  intros H. destruct H as [conf m nm H| |]; cbn; auto. destruct m; auto. apply flat_simple_type in H as (ty & rest & pr & H). eapply literal_type_nonul; eauto.
Qed.
Lemma reads_lits ts v fs : reads e ts v fs -> Forall (fun f => lits_ok (fst f)) fs.
Proof.
  assert (HA : forall l fs, reads_all e ts l fs -> Forall (fun f => lits_ok (fst f)) fs) by (induction 1; constructor; auto; eapply field_lits; eauto).
  intros H. destruct H; constructor; auto; try (eapply field_lits; eauto; fail). eauto.
Qed.

(** what adding does *)
Definition added (ts : list (text * nat)) (h : list (option node)) (d : nat) (h' : list (option node)) (fs : rfields) (en : nat) : Prop :=
  grows h (Some d) h' /\ seg h' ts d (norm fs) en /\ (en = d \/ List.length h <= en) /\ (fs <> [] -> inner_ok h' d).
Definition good_start (h : list (option node)) (d : nat) : Prop := exists n, live h d n /\ blank_node n.
Definition adder (addp : ctx -> nat -> json -> er (ctx * option (option nat))) (k : nat) : Prop :=
  forall v fs cx n, jdepth v < k -> reads e (map fst (c_types cx)) v fs -> good_start (c_nodes cx) n ->
    exists h' en, addp cx n v = EOk (set_nodes cx h', Some (Some en)) /\ added (c_types cx) (c_nodes cx) n h' fs en.

Definition holds_inner (ts : list (text * nat)) (h : list (option node)) (o : option nat) (fs : rfields) : Prop :=
  exists n, o = Some n /\ inner_ok h n /\ rep h ts n (norm fs).
Lemma holds_keep ts h h' o fs : grows h None h' -> holds_inner ts h o fs -> holds_inner ts h' o fs.
Proof. intros HG (n & -> & A & B). pose proof (keep_none _ _ HG) as HK. exists n. split; auto. split; [eapply inner_frame; eauto|]. apply (rep_frame h h' ts HK). exact B. Qed.
Lemma reads_ne ts v fs : reads e ts v fs -> fs <> []. Proof. intros H. destruct H; discriminate. Qed.

Lemma inner_part addp k cx v fs (cont stop : ctx -> er (ctx * option nat * option nat * bool)) :
  adder addp k -> jdepth v < k -> reads e (map fst (c_types cx)) v fs ->
  let n := List.length (c_nodes cx) in
  exists h', grows (c_nodes cx) None h' /\ holds_inner (c_types cx) h' (Some n) fs /\
    (do* (cx', en) := addp (set_nodes cx (c_nodes cx ++ [Some new_node])) n v in
     match en with None => stop cx' | Some None => EUb NullDeref | Some (Some en) => cont (set_nodes cx' (upd_node (c_nodes cx') en set_term)) end) = cont (set_nodes cx h').
Proof.
  intros HA Hd HR n. set (cx0 := set_nodes cx (c_nodes cx ++ [Some new_node])).
  assert (H0 : live (c_nodes cx0) n new_node) by (apply live_app; right; auto).
  destruct (HA v fs cx0 n Hd HR (ex_intro _ new_node (conj H0 new_blank))) as (h1 & en & E1 & G1 & S1 & En & I1). rewrite E1. cbn [ebind]. cbn [cx0 set_nodes c_nodes c_types] in *.
  set (h2 := upd_node h1 en set_term). assert (Ht : forall n, n_parsers (set_term n) = n_parsers n /\ n_term (set_term n) = true) by (intros; split; reflexivity).
  assert (Len : n <= en) by (destruct En as [->|En]; [lia|rewrite app_length in En; cbn in En; lia]).
  exists h2. split; [|split; [|reflexivity]].
  - eapply grows_none_trans; [|apply grows_quiet; intros; reflexivity|exact Len]. eapply grows_none_trans; [apply grows_new|exact G1|auto].
  - exists n. split; auto. split; [|apply seg_rep; auto]. destruct (I1 (reads_ne _ _ _ HR)) as (m & p & Hm & Hp). destruct (seg_end _ _ _ _ _ S1) as (me & Hme & Bme).
    exists m, p. split; auto. apply live_upd. left. split; auto. intros ->. assert (m = me) by (eapply live_fun; eauto). subst m. destruct Bme as [Bme _]. rewrite Hp in Bme. discriminate.
Qed.

Definition key_set (l : fields) (k : text) (o o' : option nat) ts (h' : list (option node)) (fs : rfields) : Prop :=
  match obj_get l k with Some _ => holds_inner ts h' o' fs | None => o' = o end.
Lemma get_in l k v : obj_get l k = Some v -> In k (map fst l).
Proof. induction l as [|[k' v'] l IH]; cbn; [discriminate|]. destruct (text_eqb k k') eqn:E; [left; symmetry; apply text_eqb_true; auto|auto]. Qed.
Lemma get_not l k : ~ In k (map fst l) -> obj_get l k = None.
Proof. intros H. destruct (obj_get l k) eqn:E; auto. apply get_in in E. tauto. Qed.
Lemma get_depth l k v : obj_get l k = Some v -> jdepth v < jdepth (JObj l).
Proof.
  cbn [jdepth]. induction l as [|[k' v'] l IH]; cbn [obj_get fold_right]; [discriminate|]. destruct (text_eqb k k'); [intros [= ->]; cbn [snd]; lia|]. intros H. apply IH in H. cbn [snd]. lia.
Qed.

Lemma repeat_conf_ok addp k ps ws pm : adder addp k -> forall l cx pn wn pm0,
  NoDup (map fst l) ->
  (forall v, obj_get l (L "parser") = Some v -> jdepth v < k /\ reads e (map fst (c_types cx)) v ps /\ chkNoDupeDot e v = EOk true) ->
  (forall v, obj_get l (L "while") = Some v -> jdepth v < k /\ reads e (map fst (c_types cx)) v ws) ->
  match obj_get l permit_key with None => pm = pm0 | Some (JBool x) => pm = x | _ => False end ->
  (forall k, In k (map fst l) -> caseeq k permit_key = true -> k = permit_key) ->
  exists h' pn' wn', repeat_conf e addp l pn wn pm0 cx = EOk (set_nodes cx h', pn', wn', pm) /\ grows (c_nodes cx) None h' /\
    key_set l (L "parser") pn pn' (c_types cx) h' ps /\ key_set l (L "while") wn wn' (c_types cx) h' ws.
Proof.
  intros HA. induction l as [|[key v] l IH]; intros cx pn wn pm0 ND HP HW HPm HK; cbn [repeat_conf].
  - cbn in HPm. subst pm0. exists (c_nodes cx), pn, wn. rewrite <- set_nodes_self. split; auto. split; [apply grows_refl|]. split; reflexivity.
  - inversion ND as [|? ? Hnot ND']; subst. cbn [map In fst] in *.
    assert (HK' : forall k, In k (map fst l) -> caseeq k permit_key = true -> k = permit_key) by auto.
    cbn [obj_get] in HP, HW, HPm. unfold key_set. cbn [obj_get].
    rewrite (text_eqb_sym key (L "parser")), (text_eqb_sym key (L "while")).
    destruct (text_eqb (L "parser") key) eqn:E1; [|destruct (text_eqb (L "while") key) eqn:E2].
    + apply text_eqb_true in E1. subst key. change (text_eqb (L "while") (L "parser")) with false in *. change (text_eqb permit_key (L "parser")) with false in *. cbn iota in *.
      destruct (HP v eq_refl) as (D1 & R1 & C1). rewrite C1. cbn [ebind negb]. unfold newPDAG.
      destruct (inner_part addp k cx v ps (repeat_conf e addp l (Some (List.length (c_nodes cx))) wn pm0) (fun cx' => EOk (cx', Some (List.length (c_nodes cx)), wn, pm0)) HA D1 R1) as (h1 & G1 & I1 & ->).
      destruct (IH (set_nodes cx h1) (Some (List.length (c_nodes cx))) wn pm0 ND') as (h' & pn' & wn' & E & G & KP & KW); auto.
      { intros v0 Hv0. rewrite get_not in Hv0 by auto. discriminate. }
      exists h', pn', wn'. split; [exact E|]. split; [eapply grows_none_none; eauto|]. split; [|exact KW].
      unfold key_set in KP. rewrite get_not in KP by auto. subst pn'. eapply holds_keep; eauto.
    + apply text_eqb_true in E2. subst key. change (text_eqb permit_key (L "while")) with false in *. cbn iota in *.
      destruct (HW v eq_refl) as (D1 & R1). unfold newPDAG.
      destruct (inner_part addp k cx v ws (repeat_conf e addp l pn (Some (List.length (c_nodes cx))) pm0) (fun cx' => EOk (cx', pn, Some (List.length (c_nodes cx)), pm0)) HA D1 R1) as (h1 & G1 & I1 & ->).
      destruct (IH (set_nodes cx h1) pn (Some (List.length (c_nodes cx))) pm0 ND') as (h' & pn' & wn' & E & G & KP & KW); auto.
      { intros v0 Hv0. rewrite get_not in Hv0 by auto. discriminate. }
      exists h', pn', wn'. split; [exact E|]. split; [eapply grows_none_none; eauto|]. split; [exact KP|].
      unfold key_set in KW. rewrite get_not in KW by auto. subst wn'. eapply holds_keep; eauto.
    + destruct (caseeq key (L "option.permitMismatchInParser")) eqn:E3.
      * assert (key = permit_key) by (apply HK; auto). subst key. rewrite text_eqb_refl in HPm. destruct v; try tauto. subst pm.
        destruct (IH cx pn wn b ND') as (h' & pn' & wn' & E & G & KP & KW); auto; [rewrite get_not by auto; reflexivity|]. eauto 10.
      * destruct (text_eqb permit_key key) eqn:E4; [apply text_eqb_true in E4; subst key; vm_compute in E3; discriminate|].
        destruct (IH cx pn wn pm0 ND') as (h' & pn' & wn' & E & G & KP & KW); auto. eauto 10.
Qed.

Lemma find_names nm : forall ts ts' i, map fst ts = map fst ts' -> findType ts nm i = findType ts' nm i.
Proof. induction ts as [|[a x] ts IH]; intros [|[b y] ts'] i H; cbn in H; try discriminate; auto. injection H as -> H. cbn [findType]. rewrite (IH ts' (S i) H). reflexivity. Qed.
Lemma flat_names0 ts ts' conf x : map fst ts = map fst ts' -> flat_field e ts conf = Some x -> flat_field e ts' conf = Some x.
Proof.
  intros HM. destruct x as [k nm]. unfold flat_field, newParser. cbn [c_types set_types].
  destruct (jget conf "type") as [tv|]; [|discriminate].
  destruct tv; try discriminate;
  (match goal with |- context [need_str e ?x] => destruct (need_str e x) as [typ|] end; [|discriminate]; cbn [ebind]; cbv zeta;
   destruct (match typ with c :: _ => ceq c "@" | [] => false end) eqn:EC;
   [rewrite (find_names typ ts ts' 0 HM); destruct (findType ts' typ 0) as [ti|] eqn:EF; [|discriminate]; cbn [negb];
    match goal with |- context [ebind ?x _] => match type of x with er (option text) => destruct x as [name|] end end; [|discriminate]; cbn [ebind]; auto
   |match goal with |- context [negb ?b] => destruct (negb b) end; [discriminate|];
    match goal with |- context [ebind ?x _] => match type of x with er (option text) => destruct x as [name|] end end; [|discriminate]; cbn [ebind];
    destruct (text_eqb typ (L "repeat"));
    [unfold construct_repeat;
     match goal with |- context [repeat_conf e ?d ?l None None false ?c] => destruct (repeat_conf e d l None None false c) as [[[[c1 pn] wn] pm]|] eqn:ER end; [|discriminate];
     apply repeat_conf_dummy in ER as [pm' [= -> -> -> ->]]; cbn; discriminate
    |]; destruct (simple_type e typ _) as [[pr' m]|]; [|discriminate]; destruct m as [m|]; [|discriminate]; cbn [ebind p_kind]; destruct m; auto]).
Qed.
Lemma flat_names ts conf x : flat_field e (known (map fst ts)) conf = Some x -> flat_field e ts conf = Some x.
Proof. apply flat_names0. unfold known. rewrite map_map. cbn. rewrite map_id. reflexivity. Qed.

Lemma push_one n p : n_parsers n = [] -> push_parser (n_parsers n) p = [p].
Proof. intros ->. reflexivity. Qed.
(** hanging one parser with a fresh node below a blank node *)
Lemma hang cx h1 d n p f : grows (c_nodes cx) None h1 -> live (c_nodes cx) d n -> blank_node n -> p_child p = List.length h1 -> den h1 (c_types cx) (p_kind p) f -> has_data p ->
  added (c_types cx) (c_nodes cx) d (upd_node (h1 ++ [Some new_node]) d (fun n => set_parsers n (push_parser (n_parsers n) p))) [(f, p_name p)] (List.length h1).
Proof.
  intros G Hd B Hc HD Hp. set (en := List.length h1). set (h2 := h1 ++ [Some new_node]). set (h' := upd_node h2 d _).
  assert (Hd1 : live h1 d n) by (apply (g_keep _ _ _ G); auto; discriminate). assert (Hd2 : live h2 d n) by (apply live_app; auto).
  pose proof (live_lt _ _ _ Hd1) as Lt.
  assert (Hd' : live h' d (set_parsers n [p])). { pose proof (live_upd_same h2 d n (fun n => set_parsers n (push_parser (n_parsers n) p)) Hd2) as H. cbv beta in H. rewrite (push_one n p (proj1 B)) in H. exact H. }
  assert (He : live h' en new_node). { apply live_upd. left. split; [lia|]. apply live_app. right. auto. }
  assert (K : forall i m, live h1 i m -> ~ blank_node m -> live h' i m). { intros i m Hi Hb. apply live_upd. left. split; [|apply live_app; auto]. intros <-. apply Hb. rewrite <- (live_fun _ _ _ _ Hd1 Hi). exact B. }
  split; [|split; [|split]].
  - pose proof (g_len _ _ _ G) as GL. constructor.
    + intros i m Hi Hne. apply live_upd. left. split; [congruence|]. apply live_app. left. apply (g_keep _ _ _ G); auto. discriminate.
    + unfold h', h2, upd_node. rewrite upd_nth_length, app_length. lia.
    + intros HA. pose proof (g_data _ _ _ G HA) as HA1. intros i m q Hm Hq. apply live_upd in Hm as [[_ Hm]|[<- (n0 & Hn0 & ->)]].
      * apply live_app in Hm as [Hm|[_ [= <-]]]; [eapply HA1; eauto|destruct Hq].
      * assert (n0 = n) by (eapply live_fun; eauto). subst n0. cbn [n_parsers set_parsers] in Hq. rewrite (push_one n p (proj1 B)) in Hq. destruct Hq as [<-|[]]. exact Hp.
  - change (norm [(f, p_name p)]) with (chop (f, p_name p) ++ []). eapply seg_step; [exact Hd'|reflexivity|exact (proj2 B)|apply (rep_frame h1 h' _ K); exact HD|].
    rewrite Hc. eapply seg_nil; [exact He|apply new_blank].
  - right. apply (g_len _ _ _ G).
  - intros _. exists (set_parsers n [p]), p. auto.
Qed.

Definition rep_rest (l : fields) (nm : option text) : fields :=
  let rest := obj_del (obj_del l (L "type")) (L "priority") in match nm with Some _ => obj_del rest (L "name") | None => rest end.
Lemma rest_get l nm k : text_eqb k (L "type") = false -> text_eqb k (L "priority") = false -> text_eqb k (L "name") = false -> obj_get (rep_rest l nm) k = obj_get l k.
Proof. intros A B C. unfold rep_rest. destruct nm; rewrite ?TypeFacts.obj_get_del; auto. Qed.
Lemma rest_incl l nm : incl (rep_rest l nm) l.
Proof. unfold rep_rest. destruct nm; repeat (eapply incl_tran; [apply obj_del_incl|]); apply incl_refl. Qed.
Lemma rest_nodup l nm : NoDup (map fst l) -> NoDup (map fst (rep_rest l nm)).
Proof. intros. unfold rep_rest. destruct nm; repeat apply obj_del_nodup; auto. Qed.

Lemma newParser_repeat addp k cx l nm ps ws permit : adder addp k -> jdepth (JObj l) <= k -> reads_field e (map fst (c_types cx)) (JObj l) (RRepeat ps ws permit, nm) ->
  exists h1 p, newParser e addp cx (JObj l) = EOk (set_nodes cx h1, Some p) /\ grows (c_nodes cx) None h1 /\ p_name p = nm /\ p_conf p = JObj l /\ den h1 (c_types cx) (p_kind p) (RRepeat ps ws permit) /\ has_data p /\ (exists a b, p_kind p = KRepeat a b permit).
Proof.
  intros HA Hd H. inversion H as [| |l0 nm0 pv wv ps0 ws0 permit0 ND HT HN HP RP HDot HW RW HPm]; subst.
  unfold newParser. change (jget (JObj l) "type") with (obj_get l (L "type")). rewrite HT. change (need_str e (JStr (L "repeat"))) with (EOk (L "repeat")). cbn [ebind].
  change (match L "repeat" with c :: _ => ceq c "@" | [] => false end) with false. cbn iota. change (text_eqb (L "repeat") (L "repeat")) with true. cbn [orb negb]. cbv zeta iota.
  assert (EN : match jget (JObj l) "name" with None | Some JNull => EOk None | Some v => do* s := need_str e v in EOk (if text_eqb s (L "-") then None else Some s) end = EOk nm).
  { unfold named_as in HN. cbn [jget]. destruct (obj_get l (L "name")) as [v|]; [|congruence]. destruct v; try tauto. destruct HN as [Hs ->]. unfold need_str, jstring. rewrite cstr_id by auto. reflexivity. }
  rewrite EN. cbn [ebind]. change (match nm with Some _ => obj_del (obj_del (obj_del l (L "type")) (L "priority")) (L "name") | None => obj_del (obj_del l (L "type")) (L "priority") end) with (rep_rest l nm).
  destruct HPm as [HPm HK].
  destruct (repeat_conf_ok addp k ps ws permit HA (rep_rest l nm) cx None None false) as (h1 & pn & wn & E & G & KP & KW).
  - apply rest_nodup; auto.
  - intros v Hv. rewrite rest_get in Hv by reflexivity. rewrite HP in Hv. injection Hv as <-. pose proof (get_depth _ _ _ HP). split; [lia|]. split; auto. eapply chk_ok; eauto.
  - intros v Hv. rewrite rest_get in Hv by reflexivity. rewrite HW in Hv. injection Hv as <-. pose proof (get_depth _ _ _ HW). split; [lia|]. auto.
  - rewrite rest_get by reflexivity. exact HPm.
  - intros k0 Hk0. apply HK. apply in_map_iff in Hk0 as (x & <- & Hx). apply in_map. eapply rest_incl; eauto.
  - unfold key_set in KP, KW. rewrite rest_get in KP, KW by reflexivity. rewrite HP in KP. rewrite HW in KW. destruct KP as (a & -> & IA & RA). destruct KW as (b & -> & IB & RB).
    unfold construct_repeat. rewrite E. cbn [ebind]. eexists h1, _. split; [reflexivity|]. split; auto. cbn [p_name p_conf p_kind]. split; auto. split; auto. split; [|split; [|eauto]].
    + apply den_repeat; auto; eapply reads_lits; eauto.
    + unfold has_data. cbn. discriminate.
Qed.

Lemma addInstance_one addp k cx conf f nm d : adder addp k -> jdepth conf <= k -> reads_field e (map fst (c_types cx)) conf (f, nm) -> good_start (c_nodes cx) d ->
  exists h' en, addInstance e addp cx conf (Some d) None = EOk (set_nodes cx h', Some en) /\ added (c_types cx) (c_nodes cx) d h' [(f, nm)] en.
Proof.
  intros HA Hk H (n & Hd & B).
  assert (HF : exists h1 p, newParser e addp cx conf = EOk (set_nodes cx h1, Some p) /\ grows (c_nodes cx) None h1 /\ p_name p = nm /\ p_conf p = conf /\ den h1 (c_types cx) (p_kind p) f /\ has_data p).
  { remember (f, nm) as fn eqn:EF. destruct H as [conf m nm0 H|conf ti T nm0 H Hn|l nm0 pv wv ps ws permit H1 H2 H3 H4 H5 H6 H7 H8 H9]; injection EF as <- <-.
    - destruct (newParser_flat e addp cx conf _ _ (flat_names _ _ _ H)) as (pr & E & _). exists (c_nodes cx). eexists. rewrite <- set_nodes_self. split; [exact E|]. split; [apply grows_refl|]. cbn. split; auto. split; auto. split.
      + apply den_simple. destruct m; cbn; auto. apply flat_simple_type in H as (ty & rest & pr0 & H). eapply literal_type_nonul; eauto.
      + intros HL. unfold is_lit in HL. cbn [p_kind] in *. destruct m; try (vm_compute in HL; discriminate HL); eauto. destruct (flat_data e _ _ _ _ H).
    - destruct (newParser_flat e addp cx conf _ _ (flat_names _ _ _ H)) as (pr & E & _). exists (c_nodes cx). eexists. rewrite <- set_nodes_self. split; [exact E|]. split; [apply grows_refl|]. cbn. split; auto. split; auto. split; [rewrite nth_error_map in Hn; destruct (nth_error (c_types cx) ti) as [[T0 tn]|] eqn:E0; [|discriminate]; injection Hn as <-; eapply den_custom; eauto|].
      intros HL. discriminate HL.
    - assert (HR : reads_field e (map fst (c_types cx)) (JObj l) (RRepeat ps ws permit, nm0)) by (eapply rd_repeat; eauto).
      destruct (newParser_repeat addp k cx l nm0 ps ws permit HA Hk HR) as (h1 & p & A1 & A2 & A3 & A4 & A5 & A6 & _). eauto 10. }
  destruct HF as (h1 & p & E & G & EN & EC & HD & HP). unfold addInstance. rewrite E. cbn [ebind]. rewrite nodes_set.
  assert (Hd1 : live h1 d n) by (apply (g_keep _ _ _ G); auto; discriminate). rewrite (live_get _ _ _ Hd1). cbn [ebind]. rewrite (proj1 B). cbn [find_same]. unfold newPDAG. cbn [ebind]. rewrite nodes_set.
  subst nm. eexists. exists (List.length h1). split; [reflexivity|].
  set (p' := {| p_kind := p_kind p; p_name := p_name p; p_conf := p_conf p; p_prio := p_prio p; p_child := List.length h1 |}).
  change (p_name p) with (p_name p'). apply hang with (n := n); auto.
Qed.

Lemma added_seq ts h d h1 fs en h2 gs en2 : added ts h d h1 fs en -> added ts h1 en h2 gs en2 -> fs <> [] -> added ts h d h2 (fs ++ gs) en2.
Proof.
  intros (G1 & S1 & L1 & I1) (G2 & S2 & L2 & I2) NE. destruct (seg_end _ _ _ _ _ S1) as (n & Hn & Bn). pose proof (keep_blank _ _ _ _ G2 Hn Bn) as K. pose proof (g_len _ _ _ G1) as LL.
  split; [eapply grows_trans; eauto|]. split; [unfold norm; rewrite flat_map_app; eapply seg_frame; eauto|]. split; [destruct L1, L2; subst; auto; right; lia|].
  intros _. eapply inner_frame; [exact K|auto].
Qed.
Lemma seg_start ts h d h' fs en : added ts h d h' fs en -> good_start h' en.
Proof. intros (_ & S & _). apply seg_end in S. exact S. Qed.

Lemma loop_ok inner addp k : adder addp k -> forall l fs, reads_all e [] [] [] -> forall cx d, Forall (fun c => jdepth c <= k) l -> reads_all e (map fst (c_types cx)) l fs -> l <> [] -> good_start (c_nodes cx) d ->
  forall pnext, exists h' en, addParsers_loop e addp inner cx Seq l (Some d) None pnext = EOk (set_nodes cx h', Some (Some en, Some en)) /\ added (c_types cx) (c_nodes cx) d h' fs en.
Proof.
  intros HA l. induction l as [|c l IH]; intros fs _ cx d HD HR NE HS pnext; [tauto|]. inversion HD as [|? ? Hc HD']; subst. inversion HR as [|? ? [f nm] gs Hf HR']; subst.
  cbn [addParsers_loop]. destruct (reads_field_obj _ _ _ Hf) as [ol ->].
  destruct (addInstance_one addp k cx (JObj ol) f nm d HA Hc Hf HS) as (h1 & en1 & E1 & A1). rewrite E1. cbn [ebind].
  destruct l as [|c2 l].
  - inversion HR'; subst. cbn [addParsers_loop]. exists h1, en1. split; auto.
  - destruct (IH gs ltac:(constructor) (set_nodes cx h1) en1 HD' HR' ltac:(discriminate) (seg_start _ _ _ _ _ _ A1) (Some en1)) as (h2 & en2 & E2 & A2).
    exists h2, en2. split; [exact E2|]. change ((f, nm) :: gs) with ([(f, nm)] ++ gs). eapply added_seq; eauto. discriminate.
Qed.

Lemma addInternal_ok : forall fuel cx v fs d, jdepth v < fuel -> reads e (map fst (c_types cx)) v fs -> good_start (c_nodes cx) d ->
  exists h' en, addInternal e fuel cx Seq (Some d) v None = EOk (set_nodes cx h', Some (Some en, Some en)) /\ added (c_types cx) (c_nodes cx) d h' fs en.
Proof.
  induction fuel as [|k IH]; intros cx v fs d Hd HR HS; [lia|]. cbn [addInternal]. unfold addInternal_step.
  set (addp := fun cx d j => do* (cx, r) := addInternal e k cx Seq (Some d) j None in EOk (cx, match r with None => None | Some (en, _) => Some en end)).
  assert (HA : adder addp k). { intros v0 fs0 cx0 n0 D0 R0 S0. destruct (IH cx0 v0 fs0 n0 D0 R0 S0) as (h' & en & E & A). exists h', en. unfold addp. rewrite E. split; auto. }
  inversion HR as [conf [f nm] Hf|c l f gs Hf HL]; subst.
  - destruct (addInstance_one addp k cx v f nm d HA ltac:(lia) Hf HS) as (h1 & en1 & E1 & A1).
    assert (HT : exists ol tv typ, v = JObj ol /\ jget v "type" = Some tv /\ tv <> JNull /\ need_str e tv = EOk typ /\ text_eqb typ (L "alternative") = false).
    { clear -Hf. remember (f, nm) as fn. destruct Hf as [conf m nm0 H|conf ti T nm0 H Hn|l nm0 pv wv ps ws permit H1 H2 H3 H4 H5 H6 H7 H8 H9]; try (eapply flat_obj; eauto; fail).
      exists l, (JStr (L "repeat")), (L "repeat"). split; auto. split; auto. split; [discriminate|]. split; reflexivity. }
    destruct HT as (ol & tv & typ & -> & ET & NT & EN & EA). rewrite ET.
    exists h1, en1. split; [|exact A1]. destruct tv; try congruence; rewrite EN; cbn [ebind]; rewrite EA, E1; reflexivity.
  - cbn [jdepth] in Hd. destruct (loop_ok (addInternal e k) addp k HA (c :: l) (f :: gs) ltac:(constructor) cx d) with (pnext := @None nat) as (h1 & en1 & E1 & A1); auto; [|constructor; auto|discriminate|eauto].
    clear -Hd. remember (c :: l) as l0. clear Heql0 c l. revert Hd. induction l0 as [|c l IHl]; intros Hd; constructor; cbn [fold_right] in Hd; [lia|apply IHl; lia].
Qed.

Lemma addParser_ok cx v fs d : reads e (map fst (c_types cx)) v fs -> good_start (c_nodes cx) d ->
  exists h' en, addParser e cx d v = EOk (set_nodes cx h', Some (Some en)) /\ added (c_types cx) (c_nodes cx) d h' fs en.
Proof. intros HR HS. destruct (addInternal_ok (S (jdepth v)) cx v fs d ltac:(lia) HR HS) as (h' & en & E & A). exists h', en. unfold addParser. rewrite E. split; auto. Qed.

Lemma add_confs_ok ts : forall cs fs, reads_rule e (map fst ts) cs fs -> forall cx d, c_types cx = ts -> good_start (c_nodes cx) d ->
  exists h' en, add_confs e cx (Some d) cs = EOk (set_nodes cx h', Some (Some en)) /\ added ts (c_nodes cx) d h' fs en.
Proof.
  intros cs fs H. remember (map fst ts) as names eqn:EN. induction H as [|conf fs cs gs HR _ IH]; intros cx d HT HS; cbn [add_confs].
  - exists (c_nodes cx), d. rewrite <- set_nodes_self. split; auto. destruct HS as (n & Hn & Bn). split; [apply grows_refl|]. split; [eapply seg_nil; eauto|]. split; [auto|]. intros []. reflexivity.
  - subst ts names. destruct (addParser_ok cx conf fs d HR HS) as (h1 & en1 & E1 & A1). rewrite E1. cbn [ebind].
    destruct (IH (set_nodes cx h1) en1 eq_refl (seg_start _ _ _ _ _ _ A1)) as (h2 & en2 & E2 & A2). exists h2, en2. split; [exact E2|]. eapply added_seq; eauto. eapply reads_ne; eauto.
Qed.

(** one rule below a blank node *)
Lemma addSamp_one cx rule cs fs d tags : rule_confs e rule cs -> reads_rule e (map fst (c_types cx)) cs fs -> good_start (c_nodes cx) d ->
  exists h', addSampToTree e cx rule d tags = EOk (set_nodes cx h') /\ rep h' (c_types cx) d (norm fs) /\ (forall i n, live (c_nodes cx) i n -> i <> d -> live h' i n) /\
    (all_data (c_nodes cx) -> all_data h') /\ (fs <> [] -> inner_ok h' d) /\ List.length (c_nodes cx) <= List.length h' /\
    exists ps en n, lin h' d ps en /\ live h' en n /\ n_tags n = tags.
Proof.
  intros HC HR HS. unfold addSampToTree. rewrite (add_rule_confs e rule cs HC) by lia.
  destruct (add_confs_ok _ cs fs HR cx d eq_refl HS) as (h1 & en & E & G & SG & L1 & I1). rewrite E. cbn [ebind]. rewrite nodes_set.
  destruct (seg_end _ _ _ _ _ SG) as (n & Hn & Bn). rewrite (live_get _ _ _ Hn). cbn [ebind].
  set (f := set_terminal tags _ _). assert (Q : forall n, n_parsers (f n) = n_parsers n) by reflexivity.
  exists (upd_node h1 en f). split; [reflexivity|]. split; [apply seg_rep; auto|]. pose proof (grows_quiet h1 en f Q) as G2.
  split; [|split; [|split; [|split]]].
  - intros i m Hi Hne. apply (g_keep _ _ _ G2); [apply (g_keep _ _ _ G); auto; congruence|]. intros [= ->]. apply live_lt in Hi. destruct L1; [congruence|lia].
  - intros HD. apply (g_data _ _ _ G2). apply (g_data _ _ _ G). exact HD.
  - intros NE. destruct (I1 NE) as (m & p & Hm & Hp). exists m, p. split; auto. apply live_upd. left. split; auto. intros ->. assert (m = n) by (eapply live_fun; eauto). subst m. destruct Bn as [Bn _]. rewrite Hp in Bn. discriminate.
  - pose proof (g_len _ _ _ G). pose proof (g_len _ _ _ G2). lia.
  - destruct (seg_lin h1 (c_types cx) f d (norm fs) en) as [ps HL]; auto. exists ps, en, (f n). split; auto. split; [apply live_upd_same; auto|reflexivity].
Qed.
End Add.
