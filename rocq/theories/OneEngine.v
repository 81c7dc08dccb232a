(** * OneEngine: the normalizer follows a graph without branches. *)
From Verif Require Import Base Time Parsers Engine EngineSpec EngineSpec2 GraphSpec RuleSpec OneSpec BaseFacts FieldFacts EngineFacts EngineFacts2 EngineFacts3 EngineGen RuleFacts OptSem OneFacts.
From Coq Require Import ZifyBool ZifyNat ZifyN.

(** [rep h ts i l]: node [i] is the start of a chain with the fields [l]. *)
Definition inner_ok (h : list (option node)) (i : nat) : Prop := exists n p, live h i n /\ n_parsers n = [p].
Inductive rep (h : list (option node)) (ts : list (text * nat)) : nat -> rfields -> Prop :=
| rep_end : forall i n, live h i n -> n_parsers n = [] -> n_term n = true -> rep h ts i []
| rep_step : forall i n p f l, live h i n -> n_parsers n = [p] -> n_term n = false -> den h ts (p_kind p) f -> rep h ts (p_child p) l ->
    rep h ts i (chop (f, p_name p) ++ l)
with den (h : list (option node)) (ts : list (text * nat)) : kind -> rfield -> Prop :=
| den_simple : forall m, lits_ok (RPlain m) -> den h ts (KSimple m) (RPlain m)
| den_custom : forall ti T tn, nth_error ts ti = Some (T, tn) -> den h ts (KCustom ti) (RType T)
| den_repeat : forall pn wn permit ps ws, inner_ok h pn -> inner_ok h wn -> Forall (fun f => lits_ok (fst f)) ps -> Forall (fun f => lits_ok (fst f)) ws ->
    rep h ts pn (norm ps) -> rep h ts wn (norm ws) -> den h ts (KRepeat pn wn permit) (RRepeat ps ws permit).

(** the end of a chain *)
Inductive ends (h : list (option node)) : nat -> nat -> Prop :=
| ends_here : forall i n, live h i n -> n_parsers n = [] -> ends h i i
| ends_next : forall i n p en, live h i n -> n_parsers n = [p] -> ends h (p_child p) en -> ends h i en.

Section Run.
Variables (e : env) (cx : ctx) (types : list (text * rfields)) (msg : text).
Hypothesis Hnul : ~ In NUL msg.
Notation rep := (rep (c_nodes cx) (c_types cx)).
Notation den := (den (c_nodes cx) (c_types cx)).
Notation inner_ok := (inner_ok (c_nodes cx)).
Notation field_at := (field_at e types msg).
Notation fields_at := (fields_at e types msg).
Notation items_at := (items_at e types msg).
Hypothesis Htypes : forall ti T tn, nth_error (c_types cx) ti = Some (T, tn) -> exists fs, In (T, fs) types /\ inner_ok tn /\ Forall (fun f => lits_ok (fst f)) fs /\ rep tn (norm fs).

Lemma den_lits k f : den k f -> lits_ok f.
Proof. intros H. inversion H; subst; auto; exact I. Qed.

(** fields never go back *)
Lemma at_mono :
  (forall f w from r, field_at f w from r -> forall to v, r = Some (to, v) -> from <= to) /\
  (forall fs from r, fields_at fs from r -> forall to vs, r = Some (to, vs) -> from <= to) /\
  (forall ps ws permit from good r, items_at ps ws permit from good r -> forall to l, r = Some (to, l) -> good <= from -> good <= to).
Proof.
  set (P0 := fun (f : rfield) (w : bool) (from : nat) (r : option (nat * json)) => forall to v, r = Some (to, v) -> from <= to).
  set (P1 := fun (fs : rfields) (from : nat) (r : option (nat * list (option text * json))) => forall to vs, r = Some (to, vs) -> from <= to).
  set (P2 := fun (ps ws : rfields) (permit : bool) (from good : nat) (r : option (nat * list json)) => forall to l, r = Some (to, l) -> good <= from -> good <= to).
  split; [|split].
  - apply (field_at_mut e types msg P0 P1 P2); subst P0 P1 P2; cbv beta; intros; repeat match goal with H : Some _ = Some _ |- _ => injection H as; subst | H : None = Some _ |- _ => discriminate H end; try lia;
      repeat match goal with H : forall to v, Some (?a, ?b) = Some (to, v) -> _ |- _ => specialize (H a b eq_refl) end; lia.
  - apply (fields_at_mut e types msg P0 P1 P2); subst P0 P1 P2; cbv beta; intros; repeat match goal with H : Some _ = Some _ |- _ => injection H as; subst | H : None = Some _ |- _ => discriminate H end; try lia;
      repeat match goal with H : forall to v, Some (?a, ?b) = Some (to, v) -> _ |- _ => specialize (H a b eq_refl) end; lia.
  - apply (items_at_mut e types msg P0 P1 P2); subst P0 P1 P2; cbv beta; intros; repeat match goal with H : Some _ = Some _ |- _ => injection H as; subst | H : None = Some _ |- _ => discriminate H end; try lia;
      repeat match goal with H : forall to v, Some (?a, ?b) = Some (to, v) -> _ |- _ => specialize (H a b eq_refl) end; lia.
Qed.

Definition outcome (nd offs : nat) (partial : bool) (s : rst) (l : rfields) (ok : bool) (s' : rst) : Prop :=
  exists r, fields_at l offs r /\
    match r with
    | Some (to, vs) => ok = (partial || Nat.eqb to (List.length msg))%bool /\
        (ok = true -> r_js s' = option_map (fun o => stored o vs) (r_js s) /\
           (forall n, live (c_nodes cx) nd n -> r_pt s' = match n_parsers n with [] => r_pt s | _ => to end) /\ (forall en, ends (c_nodes cx) nd en -> r_end s' = Some en))
    | None => ok = false
    end.
Definition runs (rec : nat -> nat -> bool -> rst -> er (bool * rst)) : Prop :=
  forall nd l offs partial s ok s', rep nd l -> r_pt s <= offs -> rec nd offs partial s = EOk (ok, s') -> outcome nd offs partial s l ok s'.

(** an inner chain: the outcome of its fields *)
Lemma inner_runs rec : runs rec -> forall nd fs offs s ok s', rep nd (norm fs) -> inner_ok nd -> Forall (fun f => lits_ok (fst f)) fs ->
  r_pt s <= offs -> rec nd offs true s = EOk (ok, s') ->
  exists r, fields_at fs offs r /\ match r with
    | Some (to, vs) => ok = true /\ r_js s' = option_map (fun o => stored o vs) (r_js s) /\ r_pt s' = to
    | None => ok = false end.
Proof.
  intros HR nd fs offs s ok s' Hrep (n & p & Hn & Hp) HF Hpt H. pose proof (HR _ _ _ _ _ _ _ Hrep Hpt H) as HO. clear H. destruct HO as (r & Hr & H).
  destruct (norm_at e types msg Hnul fs HF _ _ Hr) as (r' & Hr' & HA). exists r'. split; auto.
  destruct r as [[to vs]|], r' as [[to' vs']|]; cbn in HA; try tauto. destruct HA as [<- HA]. cbn [orb] in H. destruct H as [-> H]. destruct (H eq_refl) as (H1 & H2 & _).
  split; auto. split; [|specialize (H2 _ Hn); rewrite Hp in H2; exact H2]. rewrite H1. destruct (r_js s); cbn; auto. rewrite HA. reflexivity.
Qed.

Lemma repeat_runs rec pn wn permit ps ws : runs rec -> rep pn (norm ps) -> rep wn (norm ws) -> inner_ok pn -> inner_ok wn ->
  Forall (fun f => lits_ok (fst f)) ps -> Forall (fun f => lits_ok (fst f)) ws ->
  forall f strt lkg arr s o s1, r_pt s <= strt -> repeat_loop rec f pn wn permit strt lkg arr s = EOk (o, s1) ->
  exists r, items_at ps ws permit strt lkg r /\
    o = match r with
        | None => None
        | Some (to, l) => Some (to, match arr, l with None, [] => JNull | None, _ => JArr l | Some a, _ => JArr (a ++ l) end)
        end.
Proof.
  intros HR Hpn Hwn Ip Iw Fp Fw. induction f as [|f IH]; intros strt lkg arr s o s1 Hpt H; cbn [repeat_loop] in H; [discriminate|].
  apply ebind_ok in H as ([ok s2] & H1 & H). apply (inner_runs rec HR pn ps) in H1; auto. destruct H1 as (r & Hr & H1).
  destruct r as [[a vs]|].
  - destruct H1 as (-> & Hj & Hp). cbn [negb] in H. cbn [r_js set_end set_js option_map] in Hj. rewrite Hj, Hp, item_value_eq in H.
    apply ebind_ok in H as ([ok2 s3] & H2 & H). apply (inner_runs rec HR wn ws) in H2; auto; [|cbn; lia]. destruct H2 as (r2 & Hr2 & H2). destruct r2 as [[b us]|].
    + destruct H2 as (-> & _ & Hp2). rewrite Hp2 in H. apply IH in H; [|lia]. destruct H as (r3 & Hr3 & ->). destruct r3 as [[to l]|].
      * exists (Some (to, item_value (stored [] vs) :: l)). split; [eapply it_more; eauto|]. destruct arr as [x|]; cbn [app]; rewrite <- ?app_assoc; reflexivity.
      * exists None. split; [eapply it_more_no; eauto|reflexivity].
    + subst ok2. injection H as <- <-. exists (Some (a, [item_value (stored [] vs)])). split; [eapply it_last; eauto|]. destruct arr as [x|]; reflexivity.
  - subst ok. cbn [negb] in H. destruct permit; injection H as <- <-.
    + exists (Some (lkg, [])). split; [apply it_back; auto|]. destruct arr as [x|]; rewrite ?app_nil_r; reflexivity.
    + exists None. split; [apply it_no; auto|reflexivity].
Qed.

Lemma try_runs rec rf p f offs s o s1 : runs rec -> den (p_kind p) f -> r_pt s <= offs -> tryParser e cx msg rec rf p offs s = EOk (o, s1) ->
  field_at f (has_name (p_name p)) offs o /\ r_pt s1 = r_pt s /\ r_js s1 = r_js s.
Proof.
  intros HR HD Hpt. unfold tryParser. change (match p_name p with Some _ => true | None => false end) with (has_name (p_name p)).
  inversion HD as [m Hm Ek Ef|ti T tn Ht Ek Ef|pn wn permit ps ws Ip Iw Fp Fw Rp Rw Ek Ef]; subst f.
  - destruct (Nat.ltb _ _); [discriminate|]. destruct (run_motif e m _ offs (skipn offs msg)) as [[n v]|k|u] eqn:E; intros [= <- <-]; (split; [|auto]).
    + apply fa_plain. exact E.
    + eapply fa_plain_no. exact E.
  - rewrite Ht. intros H. apply ebind_ok in H as ([ok s2] & H1 & H). destruct (Htypes _ _ _ Ht) as (fs & Hin & It & Ft & Rt).
    apply (inner_runs rec HR tn fs) in H1; auto. destruct H1 as (r & Hr & H1). injection H as <- <-. split; [|auto]. destruct r as [[to vs]|].
    + destruct H1 as (-> & Hj & <-). cbn [r_js set_end set_js option_map] in Hj. rewrite Hj. eapply fa_type; eauto.
    + subst ok. eapply fa_type_no; eauto.
  - intros H. apply ebind_ok in H as ([o2 s2] & H1 & H). apply (repeat_runs rec pn wn permit ps ws) in H1; auto. destruct H1 as (r & Hr & ->). injection H as <- <-.
    split; [|auto]. destruct r as [[to l]|]; [|apply fa_repeat_no; exact Hr]. destruct (has_name (p_name p)) eqn:En.
    + destruct l as [|x l]; [eapply fa_repeat_null; eauto|eapply fa_repeat; eauto; discriminate].
    + eapply fa_repeat_null; eauto.
Qed.

Lemma run_ok : forall fuel, runs (normalizeRec e cx msg fuel).
Proof.
  induction fuel as [|f IH]; intros nd l offs partial s ok s' HR Hpt H; cbn [normalizeRec] in H; [discriminate|].
  unfold norm_step in H. apply ebind_ok in H as (n & Hn & H). apply get_node_at in Hn. unfold node_at in Hn. fold (live (c_nodes cx) nd n) in Hn.
  apply ebind_ok in H as ([ok1 s1] & HL & H).
  inversion HR as [i n0 Hi Hps Hterm E1 E2|i n0 p fd l' Hi Hps Hterm HD HC E1 E2]; subst i l; assert (n0 = n) by (unfold live in *; congruence); subst n0; rewrite Hps in HL.
  - cbn [parser_loop] in HL. injection HL as <- <-. rewrite Hterm in H. cbn [andb] in H. exists (Some (offs, [])). split; [constructor|].
    destruct (Nat.eqb offs (List.length msg) || partial)%bool eqn:EE; injection H as <- <-; rewrite orb_comm in EE; rewrite EE; (split; [reflexivity|]).
    + intros _. split; [cbn; destruct (r_js s); reflexivity|]. split; [intros n1 Hn1; assert (n1 = n) by (unfold live in *; congruence); subst n1; rewrite Hps; reflexivity|].
      intros en Hen. inversion Hen as [i1 n1 A B C D|i1 n1 p1 en1 A B C D E]; subst; [reflexivity|]. assert (n1 = n) by (unfold live in *; congruence). subst n1. congruence.
    + discriminate.
  - rewrite Hterm in H. cbn [andb] in H. injection H as <- <-. cbn [parser_loop] in HL.
    apply ebind_ok in HL as ([o s2] & HT & HL). apply (try_runs _ _ _ fd) in HT; auto. destruct HT as (HF & Hpt2 & Hjs2). cbn [r_pt r_js set_log] in Hpt2, Hjs2. pose proof (den_lits _ _ HD) as HLi.
    destruct o as [[mid v]|].
    + pose proof (proj1 at_mono _ _ _ _ HF _ _ eq_refl) as Hmid. apply ebind_ok in HL as ([ok2 s3] & HRec & HL). apply (IH _ l') in HRec; [|exact HC|lia]. destruct HRec as (r & Hr & HRec).
      destruct (chop_ok e types msg Hnul fd (p_name p) l' offs mid v r HLi HF Hr) as (r' & Hr' & HA). destruct r as [[to vs]|], r' as [[to' vs']|]; cbn in HA; try tauto.
      * destruct HA as [-> HA]. exists (Some (to, vs')). split; [exact Hr'|]. pose proof (proj1 (proj2 at_mono) _ _ _ Hr _ _ eq_refl) as Hto.
        destruct HRec as [E2 HRec]. destruct ok2.
        -- apply ebind_ok in HL as (js & Hfix & HL). apply fixJSON_opt in Hfix. injection HL as <- <-. split; [exact E2|]. intros _. destruct (HRec eq_refl) as (Hj3 & Hp3 & He3). split; [|split].
           ++ assert (EJ : js = option_map (fun o => stored o vs') (r_js s)). { subst js. rewrite Hj3, Hjs2. destruct (r_js s); cbn; auto. rewrite HA. reflexivity. }
              destruct (opt_rule (c_opts cx)); exact EJ.
           ++ intros n1 Hn1. assert (n1 = n) by (unfold live in *; congruence). subst n1. rewrite Hps.
              assert (EP : r_pt s3 = to \/ (r_pt s3 = r_pt s2 /\ to = mid)).
              { inversion HC as [i3 n3 Hi3 Hps3 Ht3 Ei El|i3 n3 p3 f3 l3 Hi3 Hps3 Ht3 Hd3 Hc3 Ei El]; subst i3; specialize (Hp3 _ Hi3); rewrite Hps3 in Hp3; auto. right. split; auto. subst l'. inversion Hr. reflexivity. }
              assert (E0 : forall b : bool, r_pt (if b then set_rule (set_js s3 js) (r_rule (set_js s3 js) ++ mockup_of p) else set_js s3 js) = r_pt s3) by (intros []; reflexivity).
              cbn [r_pt set_pt]. rewrite E0. destruct EP as [-> |[-> ->]]; lia.
           ++ intros en Hen. inversion Hen as [i1 n1 A B C D|i1 n1 p1 en1 A B C D E]; subst; assert (n1 = n) by (unfold live in *; congruence); subst n1; [congruence|].
              assert (p1 = p) by congruence. subst p1. rewrite <- (He3 _ C). destruct (opt_rule (c_opts cx)); reflexivity.
        -- cbn [parser_loop] in HL. injection HL as <- <-. split; [exact E2|discriminate].
      * exists None. split; [exact Hr'|]. subst ok2. cbn [parser_loop] in HL. injection HL as <- <-. reflexivity.
    + injection HL as <- <-. exists None. split; [|reflexivity]. apply chop_no; auto.
Qed.
End Run.
