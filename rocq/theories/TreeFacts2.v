(** * TreeFacts2: adding a whole rule; contexts built from rules. *)
From Verif Require Import Base Parsers Engine Pdag Samp GraphSpec RuleSpec EngineSpec BaseFacts EngineFacts2 HeapFacts BuildFacts2 BuildFacts3 TreeFacts.
From Coq Require Import ZifyBool ZifyNat ZifyN.

Section Rule.
Variable e : env.

(** ** marking the end of a rule *)
Lemma edges_upd_quiet h d f : (forall n, n_parsers (f n) = n_parsers n) -> edges (upd_node h d f) = edges h.
Proof.
  intros Hf. unfold edges, upd_node. revert d. induction h as [|x h IH]; intros [|d]; cbn; auto; f_equal; auto. destruct x; cbn; auto. rewrite Hf. reflexivity.
Qed.
Lemma path_upd_quiet h d f : (forall n, n_parsers (f n) = n_parsers n) -> forall a ps b, path (upd_node h d f) a ps b <-> path h a ps b.
Proof.
  intros Hf a ps b. split; intros H; induction H as [|i n p ps j Hi Hp HP IH]; try constructor.
  - apply live_upd in Hi as [[_ Hi]|[-> (n0 & Hi & ->)]]; [|rewrite Hf in Hp]; econstructor; eauto.
  - destruct (Nat.eq_dec d i) as [->|Hne]; [econstructor; [apply live_upd_same; eauto|rewrite Hf; auto|auto]|econstructor; [apply live_upd_other; eauto|eauto|auto]].
Qed.
Lemma tidy_quiet cx d f : (forall n, n_parsers (f n) = n_parsers n) -> tidy e cx -> tidy e (set_nodes cx (upd_node (c_nodes cx) d f)).
Proof.
  intros Hf T. constructor; rewrite ?nodes_set; change (owners (set_nodes cx (upd_node (c_nodes cx) d f))) with (owners cx); change (c_types (set_nodes cx (upd_node (c_nodes cx) d f))) with (c_types cx).
  - intros j Hj. rewrite edges_upd_quiet in Hj by auto. apply (t_dang _ _ T) in Hj as [m Hm]. destruct (Nat.eq_dec d j) as [->|Hne]; [eexists; apply live_upd_same; eauto|exists m; apply live_upd_other; auto].
  - rewrite edges_upd_quiet by auto. apply (t_nodup _ _ T).
  - intros i n p q Hi. apply live_upd in Hi as [[_ Hi]|[-> (n0 & Hi & ->)]]; rewrite ?Hf; eapply (t_uniq _ _ T); eauto.
  - intros i n p Hi. apply live_upd in Hi as [[_ Hi]|[-> (n0 & Hi & ->)]]; rewrite ?Hf; eapply (t_flat _ _ T); eauto.
Qed.

(** ** rules that cannot be read *)
Definition unknown (types : list (text * nat)) (conf : json) : Prop :=
  forall cx d, c_types cx = types -> addParser e cx d conf = EOk (cx, None).
Inductive broken_rule (types : list (text * nat)) : text -> list json -> Prop :=
| br_syntax : forall rule lit rest k, literal_part rule = (lit, rest) -> rest <> [] -> fieldDescr e rest = Bad k -> broken_rule types rule (literals e lit)
| br_type : forall rule lit rest rest' conf, literal_part rule = (lit, rest) -> rest <> [] -> fieldDescr e rest = Ok (rest', conf) -> unknown types conf -> broken_rule types rule (literals e lit)
| br_later : forall rule lit rest rest' conf cs, literal_part rule = (lit, rest) -> rest <> [] -> fieldDescr e rest = Ok (rest', conf) -> broken_rule types rest' cs ->
    broken_rule types rule (literals e lit ++ conf :: cs).

Lemma add_confs_types cs : forall cx dag cx' r, tidy e cx -> (exists d n, dag = Some d /\ live (c_nodes cx) d n) -> forall K, K < 255 -> small cx K -> Forall (nflat e cx) cs ->
  add_confs e cx dag cs = EOk (cx', r) -> c_types cx' = c_types cx.
Proof.
  intros cx dag cx' r T (d & n & -> & Hd) K HK HS HF E. destruct (chain_exists e cs cx d n K T Hd HK HS HF) as (en & cx2 & E2 & HC & _). rewrite E2 in E. injection E as <- _.
  destruct (chain_ok e _ _ _ _ _ HC T) as (_ & KP & _). rewrite (k_cx _ _ KP). reflexivity.
Qed.

Lemma add_broken types rule cs : broken_rule types rule cs -> forall fuel cx d n K, c_types cx = types -> List.length rule < fuel -> tidy e cx -> live (c_nodes cx) d n -> K <= 255 -> small cx K ->
  (K < 255 \/ n_parsers n = [] /\ 0 < K) -> Forall (nflat e cx) cs ->
  exists en cx', add_rule e fuel cx (Some d) rule = EOk (cx', None) /\ add_confs e cx (Some d) cs = EOk (cx', Some (Some en)) /\ chain e cx d cs en cx'.
Proof.
  assert (HGo : forall l cx d n K, tidy e cx -> live (c_nodes cx) d n -> K <= 255 -> small cx K -> (K < 255 \/ n_parsers n = [] /\ 0 < K) -> Forall (nflat e cx) l ->
    exists en cx', add_confs e cx (Some d) l = EOk (cx', Some (Some en)) /\ chain e cx d l en cx').
  { intros l cx d n K T Hd HK HS [HK2|[Hn HK2]] HF.
    - destruct (chain_exists e l cx d n K T Hd HK2 HS HF) as (en & cx' & A & B & _). eauto.
    - destruct K as [|K]; [lia|]. destruct (chain_fresh e l cx d n K T Hd Hn HS HF) as (en & cx' & A & B & _). eauto. }
  intros HB fuel cx d n K HT Hf T Hd HK HS HR HF.
  assert (HX : add_rule e fuel cx (Some d) rule = (do* (cx', r) := add_confs e cx (Some d) cs in match r with Some _ => EOk (cx', None) | None => EOk (cx', None) end)).
  { destruct (HGo cs cx d n K T Hd HK HS HR HF) as (en & cx' & HE & HC).
    assert (HTy : forall l m en1 cx1, cs = l ++ m -> add_confs e cx (Some d) l = EOk (cx1, Some (Some en1)) -> c_types cx1 = types).
    { intros l m en1 cx1 -> E1. apply Forall_app in HF as [HF1 _]. destruct (HGo l cx d n K T Hd HK HS HR HF1) as (en2 & cx2 & E2 & HC2). rewrite E2 in E1. injection E1 as <- <-.
      destruct (chain_ok e _ _ _ _ _ HC2 T) as (_ & KP & _). rewrite (k_cx _ _ KP). exact HT. }
    clear HGo HC HT T Hd HK HS HR HF n K. revert fuel cx d Hf HE HTy. induction HB as [rule lit rest k HL Hr HF|rule lit rest rest' conf HL Hr HF HU|rule lit rest rest' conf cs HL Hr HF HB IH]; intros fuel cx d Hf HE HTy;
    (destruct fuel as [|fuel]; [lia|]); cbn [add_rule]; (destruct rule as [|c u]; [cbn in HL; injection HL as _ <-; congruence|]); rewrite HL, add_literals_confs; fold (literals e lit).
    - rewrite HE. cbn [ebind]. destruct rest as [|r rest]; [congruence|]. rewrite HF. reflexivity.
    - rewrite HE. cbn [ebind]. destruct rest as [|r rest]; [congruence|]. rewrite HF. rewrite HU; [reflexivity|]. apply (HTy (literals e lit) [] en); [rewrite app_nil_r; auto|auto].
    - rewrite add_confs_app in HE |- *. destruct (add_confs e cx (Some d) (literals e lit)) as [[cx1 [dg|]]|] eqn:E1; cbn [ebind] in *; try discriminate.
      destruct rest as [|r rest]; [congruence|]. rewrite HF. cbn [add_confs] in HE |- *. destruct dg as [d1|]; try discriminate.
      destruct (addParser e cx1 d1 conf) as [[cx2 [[d2|]|]]|] eqn:E2; cbn [ebind] in *; try discriminate; try (destruct cs; cbn in HE; discriminate).
      apply IH.
      + pose proof (literal_part_len (List.length (c :: u)) _ _ _ (le_n _) HL) as H1. pose proof (fieldDescr_len e _ _ _ Hr HF) as H2. lia.
      + exact HE.
      + intros l m en1 cx3 -> E3. apply (HTy (literals e lit ++ conf :: l) m en1 cx3); [rewrite <- app_assoc; reflexivity|]. rewrite add_confs_app, E1. cbn [ebind add_confs]. rewrite E2. exact E3. }
  destruct (HGo cs cx d n K T Hd HK HS HR HF) as (en & cx' & HE & HC). exists en, cx'. split; [|split; [exact HE|exact HC]]. rewrite HX, HE. reflexivity.
Qed.

(** ** adding a rule *)
Lemma holds_keeps cx cx' r ps inf : tidy e cx -> keeps cx cx' -> In r (owners cx) -> holds_rule cx' r ps inf <-> holds_rule cx r ps inf.
Proof.
  intros T K Hr. assert (Hrl : r < List.length (c_nodes cx)). { destruct (t_dang _ _ T r) as [m Hm]; [apply in_or_app; auto|]. eapply live_lt; eauto. } split.
  - intros (b & n & HP & Hb & Ht & ->). destruct (k_new _ _ K _ _ Hb) as [[n0 Hn0]|[_ Hf]]; [|congruence].
    destruct (k_live _ _ K _ _ Hn0) as (n1 & Hn1 & E1 & E2 & E3 & E4 & _). assert (n1 = n) by (eapply live_fun; eauto). subst n1.
    exists b, n0. split; [apply (k_old _ _ K); auto; eapply live_lt; eauto|]. split; auto. split; congruence.
  - intros (b & n & HP & Hb & Ht & ->). destruct (k_live _ _ K _ _ Hb) as (n1 & Hn1 & E1 & E2 & E3 & E4 & _). exists b, n1. split; [eapply keeps_path; eauto|]. split; auto. split; congruence.
Qed.

Theorem rule_added cx rule cs r tags K : tidy e cx -> In r (owners cx) -> K < 255 -> small cx K -> rule_confs e rule cs -> Forall (nflat e cx) cs ->
  exists cx' ps0, addSampToTree e cx rule r tags = EOk cx' /\ tidy e cx' /\ small cx' (S K) /\ cx' = set_nodes cx (c_nodes cx') /\ confs ps0 = cs /\
    (forall ps inf, holds_rule cx' r ps inf <-> (ps = ps0 /\ inf = (tags, Some (c_file cx), c_line cx)) \/ (confs ps <> cs /\ holds_rule cx r ps inf)) /\
    (forall r' ps inf, In r' (owners cx) -> r' <> r -> holds_rule cx' r' ps inf <-> holds_rule cx r' ps inf).
Proof.
  intros T Hr HK HS HC HF. destruct (t_dang _ _ T r) as [n Hn]; [apply in_or_app; auto|].
  destruct (chain_exists e cs cx r n K T Hn HK HS HF) as (en & cx1 & E & HCh & HS1).
  destruct (chain_ok e _ _ _ _ _ HCh T) as (T1 & KP & ps0 & HP & Hcs).
  assert (Hen : exists m, live (c_nodes cx1) en m).
  { destruct ps0 as [|p ps0] using rev_ind; [inversion HP; subst; destruct (k_live _ _ KP _ _ Hn) as (m & Hm & _); eauto|].
    apply path_snoc_inv in HP as (c & m & _ & Hm & Hp & <-). apply (t_dang _ _ T1). apply in_or_app. left. eapply child_edge; eauto. }
  destruct Hen as [m Hm].
  assert (Hr1 : In r (owners cx1)). { rewrite (k_cx _ _ KP). exact Hr. }
  set (f := set_terminal tags (c_file cx) (c_line cx)). assert (Hf : forall n, n_parsers (f n) = n_parsers n) by reflexivity.
  exists (set_nodes cx1 (upd_node (c_nodes cx1) en f)), ps0.
  assert (EC : c_file cx1 = c_file cx /\ c_line cx1 = c_line cx) by (rewrite (k_cx _ _ KP); auto). destruct EC as [EC1 EC2].
  split. { unfold addSampToTree. rewrite (add_rule_confs e rule cs HC) by lia. rewrite E. cbn [ebind]. rewrite (live_get _ _ _ Hm). cbn [ebind]. rewrite EC1, EC2. reflexivity. }
  split. { apply tidy_quiet; auto. }
  split. { intros i k. rewrite nodes_set. intros Hi. apply live_upd in Hi as [[_ Hi]|[_ (n0 & Hi & ->)]]; [eauto|]. rewrite Hf. eauto. }
  split. { rewrite nodes_set, (k_cx _ _ KP) at 1. reflexivity. }
  split; [exact Hcs|].
  assert (HQ : forall r' ps inf, In r' (owners cx) -> holds_rule (set_nodes cx1 (upd_node (c_nodes cx1) en f)) r' ps inf <->
     (exists b k, path (c_nodes cx1) r' ps b /\ ((b = en /\ inf = (tags, Some (c_file cx), c_line cx)) \/ (b <> en /\ live (c_nodes cx1) b k /\ n_term k = true /\ inf = (n_tags k, n_file k, n_line k))))).
  { intros r' ps inf Hr'. unfold holds_rule. rewrite nodes_set. split.
    - intros (b & k & Hp & Hb & Ht & ->). apply path_upd_quiet in Hp; auto. exists b, k. split; auto. apply live_upd in Hb as [[Hne Hb]|[<- (n0 & Hb & ->)]]; [right; auto|left; auto].
    - intros (b & k & Hp & HH). destruct HH as [[-> ->]|(Hne & Hb & Ht & ->)].
      + exists en, (f m). split; [apply path_upd_quiet; auto|]. split; [apply live_upd_same; auto|]. split; reflexivity.
      + exists b, k. split; [apply path_upd_quiet; auto|]. split; [apply live_upd_other; auto|]. auto. }
  assert (HO : forall r' ps inf, In r' (owners cx) -> (exists b k, path (c_nodes cx1) r' ps b /\ live (c_nodes cx1) b k /\ n_term k = true /\ inf = (n_tags k, n_file k, n_line k)) <-> holds_rule cx r' ps inf).
  { intros r' ps inf Hr'. apply (holds_keeps cx cx1); auto. }
  split.
  - intros ps inf. rewrite (HQ r ps inf Hr). split.
    + intros (b & k & Hp & [[-> ->]|(Hne & Hb & Ht & ->)]).
      * left. split; auto. destruct (path_unique (c_nodes cx1) (owners cx1) (t_nodup _ _ T1) ps ps0 r r en) as [_ ->]; auto.
      * right. split; [|apply HO; eauto 6]. intros EQ. apply Hne. destruct (path_by_confs e cx1 T1 ps ps0 r b en) as [_ ->]; auto; congruence.
    + intros [[-> ->]|[HN HH]]; [exists en, m; auto|]. apply HO in HH as (b & k & Hp & Hb & Ht & ->); auto. exists b, k. split; auto. right. split; auto.
      intros ->. apply HN. destruct (path_unique (c_nodes cx1) (owners cx1) (t_nodup _ _ T1) ps ps0 r r en) as [_ ->]; auto.
  - intros r' ps inf Hr' Hne. rewrite (HQ r' ps inf Hr'). split.
    + intros (b & k & Hp & [[-> ->]|(Hb' & Hb & Ht & ->)]); [|apply HO; eauto 6]. exfalso. apply Hne. assert (Hr1' : In r' (owners cx1)) by (rewrite (k_cx _ _ KP); exact Hr').
      destruct (path_unique (c_nodes cx1) (owners cx1) (t_nodup _ _ T1) ps ps0 r' r en) as [-> _]; auto.
    + intros HH. apply HO in HH as (b & k & Hp & Hb & Ht & ->); auto. exists b, k. split; auto. right. split; auto.
      intros ->. apply Hne. assert (Hr1' : In r' (owners cx1)) by (rewrite (k_cx _ _ KP); exact Hr'). destruct (path_unique (c_nodes cx1) (owners cx1) (t_nodup _ _ T1) ps ps0 r' r en) as [-> _]; auto.
Qed.

Theorem rule_rejected cx rule cs r tags K : tidy e cx -> In r (owners cx) -> K < 255 -> small cx K -> broken_rule (c_types cx) rule cs -> Forall (nflat e cx) cs ->
  exists cx', addSampToTree e cx rule r tags = EOk cx' /\ tidy e cx' /\ small cx' (S K) /\ cx' = set_nodes cx (c_nodes cx') /\
    (forall r' ps inf, In r' (owners cx) -> holds_rule cx' r' ps inf <-> holds_rule cx r' ps inf).
Proof.
  intros T Hr HK HS HB HF. destruct (t_dang _ _ T r) as [n Hn]; [apply in_or_app; auto|].
  destruct (add_broken (c_types cx) rule cs HB (S (List.length rule)) cx r n K eq_refl) as (en & cx' & E & E2 & HC); auto; [lia|].
  destruct (chain_ok e _ _ _ _ _ HC T) as (T1 & KP & _). destruct (chain_exists e cs cx r n K T Hn HK HS HF) as (en2 & cx2 & E3 & _ & HS2). rewrite E2 in E3. injection E3 as <- _.
  exists cx'. split; [unfold addSampToTree; rewrite E; reflexivity|]. split; auto. split; auto. split; [apply (k_cx _ _ KP)|]. intros. apply holds_keeps; auto.
Qed.

(** ** a new user-defined type *)
Lemma findType_app ts ts' nm : forall i k, findType ts nm i = Some k -> findType (ts ++ ts') nm i = Some k.
Proof. induction ts as [|[n d] ts IH]; intros i k; cbn; [discriminate|]. destruct (text_eqb n nm); auto. Qed.
Lemma repeat_dummy_cx : forall l pn wn pm cx cx2 r, repeat_conf e (fun _ _ _ => EUb OutOfFuel) l pn wn pm cx = EOk r -> exists pm', repeat_conf e (fun _ _ _ => EUb OutOfFuel) l pn wn pm cx2 = EOk (cx2, pn, wn, pm').
Proof.
  induction l as [|[k v] l IH]; intros pn wn pm cx cx2 r; cbn [repeat_conf]; [eauto|].
  destruct (text_eqb k (L "parser")); [|destruct (text_eqb k (L "while")); [unfold newPDAG; discriminate|destruct (caseeq k _); apply IH]].
  destruct (chkNoDupeDot e v) as [g|]; [|discriminate]. cbn [ebind]. destruct (negb g); [eauto|unfold newPDAG; discriminate].
Qed.
Lemma flat_types_app ts ts' conf x : flat_field e ts conf = Some x -> flat_field e (ts ++ ts') conf = Some x.
Proof.
  destruct x as [k nm]. intros H. pose proof (newParser_flat e (fun _ _ _ => EUb OutOfFuel) (set_types (initCtx {| opt_orig := false; opt_rule := false; opt_loc := false |}) ts) conf k nm H) as (pr & E & HK).
  revert H. unfold flat_field, newParser. cbn [c_types set_types].
  destruct (jget conf "type") as [tv|]; [|discriminate].
  destruct tv; try discriminate;
  (match goal with |- context [need_str e ?x] => destruct (need_str e x) as [typ|] end; [|discriminate]; cbn [ebind]; cbv zeta;
   destruct (match typ with c :: _ => ceq c "@" | [] => false end) eqn:EC;
   [destruct (findType ts typ 0) as [ti|] eqn:EF; [|discriminate]; rewrite (findType_app ts ts' typ 0 ti EF); cbn [negb];
    match goal with |- context [ebind ?x _] => match type of x with er (option text) => destruct x as [name|] end end; [|discriminate]; cbn [ebind]; auto
   |match goal with |- context [negb ?b] => destruct (negb b) end; [discriminate|];
    match goal with |- context [ebind ?x _] => match type of x with er (option text) => destruct x as [name|] end end; [|discriminate]; cbn [ebind];
    destruct (text_eqb typ (L "repeat"));
    [unfold construct_repeat;
     match goal with |- context [repeat_conf e ?d ?l None None false ?c] => destruct (repeat_conf e d l None None false c) as [[[[c1 pn] wn] pm]|] eqn:ER end; [|discriminate];
     apply repeat_conf_dummy in ER as [pm' [= -> -> -> ->]]; cbn; discriminate
    |]; destruct (simple_type e typ _) as [[pr' m]|]; [|discriminate]; destruct m as [m|]; [|discriminate]; cbn [ebind p_kind]; destruct m; auto]).
Qed.

Definition add_type (cx : ctx) (nm : text) : ctx := set_types (fst (newPDAG cx)) (c_types cx ++ [(nm, List.length (c_nodes cx))]).
Lemma owners_type cx nm : owners (add_type cx nm) = owners cx ++ [List.length (c_nodes cx)].
Proof. unfold owners, add_type. cbn. rewrite map_app. reflexivity. Qed.
Lemma type_keeps cx nm : tidy e cx -> forall i ps b, path (c_nodes (add_type cx nm)) i ps b -> i < List.length (c_nodes cx) -> path (c_nodes cx) i ps b.
Proof.
  intros T i ps b H. cbn [add_type set_types newPDAG fst c_nodes set_nodes] in H. induction H as [|i n p ps j Hi Hp HP IH]; intros HL; [constructor|].
  apply live_app in Hi as [Hi|[-> _]]; [|lia]. econstructor; eauto. apply IH. destruct (t_dang _ _ T (p_child p)) as [m Hm]; [apply in_or_app; left; eapply child_edge; eauto|]. eapply live_lt; eauto.
Qed.
Lemma path_app_heap h x i ps b : path h i ps b -> path (h ++ [x]) i ps b.
Proof. induction 1 as [|i n p ps j Hi Hp HP IH]; [constructor|]. econstructor; [apply live_app; left; eauto|auto|auto]. Qed.
Theorem type_added cx nm K : tidy e cx -> small cx K ->
  tidy e (add_type cx nm) /\ small (add_type cx nm) K /\
  (forall r ps inf, In r (owners cx) -> holds_rule (add_type cx nm) r ps inf <-> holds_rule cx r ps inf) /\
  (forall ps inf, ~ holds_rule (add_type cx nm) (List.length (c_nodes cx)) ps inf).
Proof.
  intros T HS. assert (HO : forall j, In j (edges (c_nodes cx) ++ owners cx) -> j < List.length (c_nodes cx)). { intros j Hj. apply (t_dang _ _ T) in Hj as [m Hm]. eapply live_lt; eauto. }
  assert (EN : c_nodes (add_type cx nm) = c_nodes cx ++ [Some new_node]) by reflexivity.
  assert (EE : edges (c_nodes cx ++ [Some new_node]) = edges (c_nodes cx)) by (rewrite edges_app; cbn; apply app_nil_r).
  split; [|split; [|split]].
  - constructor; rewrite ?EN, ?owners_type.
    + intros j Hj. rewrite EE, app_assoc in Hj. apply in_app_or in Hj as [Hj|[<-|[]]]; [apply (t_dang _ _ T) in Hj as [m Hm]; exists m; apply live_app; auto|exists new_node; apply live_app; auto].
    + rewrite EE, app_assoc. apply NoDup_Add with (a := List.length (c_nodes cx)) (l := edges (c_nodes cx) ++ owners cx).
      * rewrite <- (app_nil_r (edges (c_nodes cx) ++ owners cx)) at 1. apply Add_app.
      * split; [apply (t_nodup _ _ T)|]. intros HI. apply HO in HI. lia.
    + intros i n p q Hi. apply live_app in Hi as [Hi|[_ [= <-]]]; [eapply (t_uniq _ _ T); eauto|intros []].
    + intros i n p Hi Hp. change (c_types (add_type cx nm)) with (c_types cx ++ [(nm, List.length (c_nodes cx))]). apply flat_types_app. apply live_app in Hi as [Hi|[_ [= <-]]]; [eapply (t_flat _ _ T); eauto|destruct Hp].
  - intros i n. rewrite EN. intros Hi. apply live_app in Hi as [Hi|[_ [= <-]]]; [eauto|cbn; lia].
  - intros r ps inf Hr. assert (Hrl : r < List.length (c_nodes cx)) by (apply HO; apply in_or_app; auto). split.
    + intros (b & n & HP & Hb & Ht & ->). apply type_keeps in HP; auto. rewrite EN in Hb. apply live_app in Hb as [Hb|[_ [= <-]]]; [|discriminate]. exists b, n. auto.
    + intros (b & n & HP & Hb & Ht & ->). exists b, n. rewrite EN. split; [apply path_app_heap; auto|]. split; [apply live_app; auto|auto].
  - intros ps inf (b & n & HP & Hb & Ht & _). rewrite EN in *. inversion HP as [|? n' p' ? ? Hn' Hp' _]; subst.
    + apply live_app in Hb as [Hb|[_ [= <-]]]; [apply live_lt in Hb; lia|discriminate].
    + apply live_app in Hn' as [Hb'|[_ [= <-]]]; [apply live_lt in Hb'; lia|destruct Hp'].
Qed.
End Rule.
