(** * FrameFacts: building a new inner graph leaves the existing nodes alone. *)
From Verif Require Import Base Parsers Engine Pdag GraphSpec BaseFacts EngineFacts2 HeapFacts DeleteFacts BuildFacts BuildFacts2 BuildFacts3.
From Coq Require Import ZifyBool ZifyNat ZifyN.

Definition opost {A} (Q : A -> Prop) (x : er A) : Prop := match x with EOk a => Q a | EUb _ => True end.
Lemma opost_bind {A B} (P : A -> Prop) (Q : B -> Prop) x (f : A -> er B) :
  opost P x -> (forall a, P a -> opost Q (f a)) -> opost Q (do* a := x in f a).
Proof. destruct x; cbn; auto. Qed.
Lemma opost_mono {A} (P Q : A -> Prop) x : opost P x -> (forall a, P a -> Q a) -> opost Q x.
Proof. destruct x; cbn; auto. Qed.
Lemma opost_any {A B} (Q : B -> Prop) (x : er A) (f : A -> er B) : (forall a, opost Q (f a)) -> opost Q (do* a := x in f a).
Proof. destruct x; cbn; auto. Qed.

(** nodes from [N] on refer to nodes from [N] on *)
Definition closedN (N : nat) (h : list (option node)) : Prop :=
  N <= List.length h /\ forall i n p t, live h i n -> N <= i -> In p (n_parsers n) -> In t (targets p) -> N <= t.
Definition sameN (N : nat) (h h' : list (option node)) : Prop := forall i, i < N -> nth_error h' i = nth_error h i.
Definition frame (N : nat) (h h' : list (option node)) : Prop := closedN N h' /\ sameN N h h' /\ List.length h <= List.length h'.

Lemma frame_refl N h : closedN N h -> frame N h h. Proof. intros H. split; auto. split; auto. intros i _. reflexivity. Qed.
Lemma frame_trans N a b c : frame N a b -> frame N b c -> frame N a c.
Proof. intros (A1 & A2 & A3) (B1 & B2 & B3). split; auto. split; [|lia]. intros i Hi. rewrite B2, A2; auto. Qed.

Lemma frame_upd N h i f : N <= i -> closedN N h -> (forall n, live h i n -> forall p t, In p (n_parsers (f n)) -> In t (targets p) -> N <= t) -> frame N h (upd_node h i f).
Proof.
  intros Hi [HC1 HC2] Hf. split; [|split].
  - split; [unfold upd_node; rewrite upd_nth_length; auto|]. intros j n p t Hj HN Hp Ht. apply live_upd in Hj as [[_ Hj]|[<- (n0 & Hn0 & ->)]]; [eauto|]. eapply Hf; eauto.
  - intros j Hj. unfold upd_node. apply upd_nth_other. lia.
  - unfold upd_node. rewrite upd_nth_length. lia.
Qed.
Lemma frame_upd_quiet N h i f : N <= i -> closedN N h -> (forall n, n_parsers (f n) = n_parsers n) -> frame N h (upd_node h i f).
Proof. intros Hi HC Hf. apply frame_upd; auto. intros n Hn p t. rewrite Hf. destruct HC as [_ HC]. eauto. Qed.
Lemma frame_free N h i : N <= i -> closedN N h -> frame N h (free_nth h i).
Proof.
  intros Hi [HC1 HC2]. split; [|split].
  - split; [unfold free_nth; rewrite upd_nth_length; auto|]. intros j n p t Hj HN Hp Ht. apply live_free in Hj as [_ Hj]. eauto.
  - intros j Hj. unfold free_nth. apply upd_nth_other. lia.
  - unfold free_nth. rewrite upd_nth_length. lia.
Qed.
Lemma frame_new N h : closedN N h -> frame N h (h ++ [Some new_node]).
Proof.
  intros [HC1 HC2]. split; [|split].
  - split; [rewrite app_length; lia|]. intros j n p t Hj HN Hp Ht. apply live_app in Hj as [Hj|[-> E]]; [eauto|]. injection E as <-. destruct Hp.
  - intros j Hj. apply nth_error_app1. lia.
  - rewrite app_length. lia.
Qed.

Lemma pdagDelete_frame N : forall f h i, closedN N h -> N <= i -> opost (frame N h) (pdagDelete f h i).
Proof.
  induction f as [|f IH]; intros h i HC Hi; [exact I|]. rewrite pdagDelete_unfold.
  destruct (get_node h i) as [n|] eqn:EG; [|exact I]. apply get_node_live in EG. cbn [ebind]. cbv zeta.
  assert (HF1 : frame N h (upd_node h i (fun n0 => set_refcnt n0 (n_refcnt n - 1)))) by (apply frame_upd_quiet; auto).
  destruct (Z.ltb 0 _); [exact HF1|].
  assert (HL : forall l h, closedN N h -> Forall (fun t => N <= t) l -> opost (frame N h) (del_list f h l)).
  { clear - IH. induction l as [|t l IHl]; intros h HC Hl; cbn [del_list]; [apply frame_refl; auto|]. inversion Hl; subst.
    eapply opost_bind; [apply (IH h t HC); auto|]. intros h1 HF. eapply opost_mono; [apply IHl; auto; apply HF|]. intros h2 HF2. eapply frame_trans; eauto. }
  eapply opost_bind; [apply HL; [apply HF1|]|].
  - apply Forall_forall. intros t Ht. apply in_flat_map in Ht as (p & Hp & Ht). destruct HC as [_ HC]. eapply HC; eauto.
  - intros h2 HF2. unfold free_node. destruct (get_node h2 i); [|exact I]. cbn [ebind opost].
    eapply frame_trans; [exact HF1|]. eapply frame_trans; [exact HF2|]. apply frame_free; auto. apply HF2.
Qed.

Definition oge (N : nat) (o : option nat) : Prop := match o with Some i => N <= i | None => True end.
Definition cframe (N : nat) (cx cx' : ctx) : Prop := cx' = set_nodes cx (c_nodes cx') /\ frame N (c_nodes cx) (c_nodes cx').
Lemma cframe_refl N cx : closedN N (c_nodes cx) -> cframe N cx cx. Proof. intros H. split; [apply set_nodes_self|apply frame_refl; auto]. Qed.
Lemma cframe_trans N a b c : cframe N a b -> cframe N b c -> cframe N a c.
Proof. intros [A1 A2] [B1 B2]. split; [rewrite B1, A1; reflexivity|eapply frame_trans; eauto]. Qed.
Lemma cframe_nodes N cx cx' h : cframe N cx cx' -> frame N (c_nodes cx') h -> cframe N cx (set_nodes cx' h).
Proof. intros [A1 A2] B. split; [rewrite A1; reflexivity|]. rewrite nodes_set. eapply frame_trans; eauto. Qed.

Section Frame.
Variable e : env.
Variable N : nat.

Definition addp_fr (addp : ctx -> nat -> json -> er (ctx * option (option nat))) : Prop :=
  forall cx n conf, closedN N (c_nodes cx) -> N <= n ->
  opost (fun x => cframe N cx (fst x) /\ match snd x with Some o => oge N o | None => True end) (addp cx n conf).

Lemma repeat_conf_fr addp (HA : addp_fr addp) : forall l pn wn permit cx, closedN N (c_nodes cx) -> oge N pn -> oge N wn ->
  opost (fun x : ctx * option nat * option nat * bool => let '(cx', pn', wn', _) := x in cframe N cx cx' /\ oge N pn' /\ oge N wn') (repeat_conf e addp l pn wn permit cx).
Proof.
  induction l as [|[k v] l IH]; intros pn wn permit cx HC Hp Hw; cbn [repeat_conf].
  - cbn. auto using cframe_refl.
  - assert (HI : forall (K S : ctx -> er (ctx * option nat * option nat * bool)) (Q : ctx * option nat * option nat * bool -> Prop),
      (forall cx', cframe N cx cx' -> opost Q (K cx')) -> (forall cx', cframe N cx cx' -> opost Q (S cx')) ->
      opost Q (do* (cx', en) := addp (set_nodes cx (c_nodes cx ++ [Some new_node])) (List.length (c_nodes cx)) v in
        match en with None => S cx' | Some None => EUb NullDeref | Some (Some en) => K (set_nodes cx' (upd_node (c_nodes cx') en set_term)) end)).
    { intros K S Q HK HS. pose proof (frame_new N (c_nodes cx) HC) as HF.
      eapply opost_bind; [apply (HA (set_nodes cx (c_nodes cx ++ [Some new_node])) (List.length (c_nodes cx)) v); [rewrite nodes_set; apply HF|apply HC]|].
      intros [cx' en] [HF' Hen]. cbn [fst snd] in *.
      assert (HF2 : cframe N cx cx'). { destruct HF' as [E F]. split; [rewrite E; reflexivity|]. rewrite nodes_set in F. eapply frame_trans; eauto. }
      destruct en as [[en|]|]; [|exact I|apply HS; exact HF2]. apply HK. apply cframe_nodes; auto. apply frame_upd_quiet; auto. apply HF2. }
    assert (HStop : forall cx' pn' wn' pm, cframe N cx cx' -> oge N pn' -> oge N wn' ->
       opost (fun x : ctx * option nat * option nat * bool => let '(cx', pn', wn', _) := x in cframe N cx cx' /\ oge N pn' /\ oge N wn') (EOk (cx', pn', wn', pm))).
    { intros. cbn. auto. }
    assert (HGo : forall cx' pn' wn' pm, cframe N cx cx' -> oge N pn' -> oge N wn' ->
       opost (fun x : ctx * option nat * option nat * bool => let '(cx', pn', wn', _) := x in cframe N cx cx' /\ oge N pn' /\ oge N wn') (repeat_conf e addp l pn' wn' pm cx')).
    { intros cx' pn' wn' pm F1 F2 F3. eapply opost_mono; [apply IH; auto; apply F1|]. intros [[[cx2 pn2] wn2] pm2] (A1 & A2 & A3). split; auto. eapply cframe_trans; eauto. }
    destruct (text_eqb k (L "parser")); [|destruct (text_eqb k (L "while"))].
    + apply opost_any. intros good. destruct (negb good); [apply HStop; auto using cframe_refl|]. unfold newPDAG.
      apply (HI (repeat_conf e addp l (Some (List.length (c_nodes cx))) wn permit) (fun cx' => EOk (cx', Some (List.length (c_nodes cx)), wn, permit)));
        intros cx' HF; [apply HGo|apply HStop]; auto; apply HC.
    + unfold newPDAG.
      apply (HI (repeat_conf e addp l pn (Some (List.length (c_nodes cx))) permit) (fun cx' => EOk (cx', pn, Some (List.length (c_nodes cx)), permit)));
        intros cx' HF; [apply HGo|apply HStop]; auto; apply HC.
    + destruct (caseeq k _); apply HGo; auto using cframe_refl.
Qed.

Definition kge (k : kind) : Prop := match k with KRepeat a b _ => N <= a /\ N <= b | _ => True end.

Lemma construct_repeat_fr addp (HA : addp_fr addp) l cx : closedN N (c_nodes cx) ->
  opost (fun x => cframe N cx (fst x) /\ kge (snd x)) (construct_repeat e addp l cx).
Proof.
  intros HC. unfold construct_repeat. eapply opost_bind; [apply (repeat_conf_fr addp HA l None None false cx); auto; exact I|].
  intros [[[cx1 pn] wn] pm] (A1 & A2 & A3).
  assert (HD : forall h o, frame N (c_nodes cx1) h -> oge N o -> opost (frame N (c_nodes cx1)) (match o with None => EOk h | Some n => pdagDelete (heap_fuel h) h n end)).
  { intros h [n|] HF Ho; [|exact HF]. eapply opost_mono; [apply (pdagDelete_frame N); [apply HF|exact Ho]|]. intros h' HF'. eapply frame_trans; eauto. }
  destruct pn as [p|], wn as [w|]; [cbn; auto| | |];
   (match goal with |- opost _ (do* h := ?x in _) => assert (HX : opost (frame N (c_nodes cx1)) x) by
      (first [apply (HD _ (Some _)); [apply frame_refl; apply A1|auto]|apply (HD _ None); [apply frame_refl; apply A1|exact I]]) end;
    eapply opost_bind; [exact HX|]; intros h1 HF1; clear HX;
    match goal with |- opost _ (do* h := ?x in _) => assert (HX : opost (frame N (c_nodes cx1)) x) by
      (first [apply (HD _ (Some _)); [exact HF1|auto]|apply (HD _ None); [exact HF1|exact I]]) end;
    eapply opost_bind; [exact HX|]; intros h2 HF2; cbn [opost fst snd kge]; split; auto; apply cframe_nodes; auto).
Qed.

Lemma newParser_fr addp (HA : addp_fr addp) conf cx : closedN N (c_nodes cx) ->
  opost (fun x => cframe N cx (fst x) /\ match snd x with Some p => kge (p_kind p) | None => True end) (newParser e addp cx conf).
Proof.
  intros HC. unfold newParser. assert (HNone : opost (fun x : ctx * option prs => cframe N cx (fst x) /\ match snd x with Some p => kge (p_kind p) | None => True end) (EOk (cx, None))) by (cbn; auto using cframe_refl).
  destruct (jget conf "type") as [tv|]; [|exact HNone].
  destruct tv; try exact HNone; apply opost_any; intros typ; cbv zeta;
  (match goal with |- opost _ (if ?b then _ else _) => destruct b end; [exact HNone|]; apply opost_any; intros name;
   match goal with |- context [findType ?a ?b ?c] => generalize (findType a b c) end; intros ft;
   destruct (if match typ with c :: _ => ceq c "@" | [] => false end then ft else None) as [ti|];
   [cbn [ebind opost fst snd p_kind kge]; auto using cframe_refl|];
   destruct (text_eqb typ (L "repeat"));
   [eapply (opost_bind (fun x => cframe N cx (fst (fst x)) /\ kge (snd (fst x))));
     [eapply opost_bind; [apply (construct_repeat_fr addp HA _ cx HC)|]; intros [cx1 k1] [A1 A2]; cbn; auto|intros [[cx1 k1] pr] [A1 A2]; cbn; auto]
   |destruct (simple_type e typ _) as [[pr m]|]; [|exact I]; destruct m as [m|]; [|exact I]; cbn; auto using cframe_refl]).
Qed.

Lemma addInstance_fr addp (HA : addp_fr addp) conf cx dag next : closedN N (c_nodes cx) -> oge N dag -> oge N next ->
  opost (fun x => cframe N cx (fst x) /\ oge N (snd x)) (addInstance e addp cx conf dag next).
Proof.
  intros HC Hd Hn. unfold addInstance. eapply opost_bind; [apply (newParser_fr addp HA conf cx HC)|]. intros [cx1 [p|]] [A1 A2]; cbn [fst snd] in *; [|cbn; auto].
  destruct dag as [d|]; [|exact I]. destruct (get_node (c_nodes cx1) d) as [n|] eqn:EG; [|exact I]. apply get_node_live in EG. cbn [ebind].
  destruct (find_same (n_parsers n) (p_kind p) conf) as [c|] eqn:EF.
  - apply find_same_in in EF as (q & Hq & <-).
    assert (Hc : N <= p_child q). { destruct A1 as [_ [[_ HC1] _]]. eapply HC1; [exact EG|exact Hd|exact Hq|left; reflexivity]. }
    destruct (p_kind p) as [m|a b pm|ti]; cbn [ebind opost fst snd]; [split; [apply cframe_nodes; [auto|apply frame_refl; apply A1]|auto]| |split; [apply cframe_nodes; [auto|apply frame_refl; apply A1]|auto]].
    destruct A2 as [Ha Hb].
    eapply opost_bind with (P := frame N (c_nodes cx1)).
    + eapply opost_bind; [apply pdagDelete_frame; [apply A1|exact Ha]|]. intros h1 HF1. eapply opost_mono; [apply pdagDelete_frame; [apply HF1|exact Hb]|]. intros h2 HF2. eapply frame_trans; eauto.
    + intros h2 HF2. cbn [opost fst snd]. split; [apply cframe_nodes; auto|auto].
  - eapply (opost_bind (fun x => cframe N cx (fst x) /\ N <= snd x)).
    + destruct next as [nn|].
      * destruct (get_node (c_nodes cx1) nn) as [m|]; [|exact I]. cbn [ebind opost fst snd]. split; [|exact Hn]. apply cframe_nodes; auto. apply frame_upd_quiet; auto. apply A1.
      * cbn [ebind opost newPDAG fst snd]. split; [|apply A1]. apply cframe_nodes; auto. apply frame_new. apply A1.
    + intros [cx2 nn] [B1 B2]. cbn [fst snd] in *. cbn [opost fst snd]. split; [|exact B2]. apply cframe_nodes; auto. apply frame_upd; [exact Hd|apply B1|].
      intros n2 Hn2 q t Hq Ht. cbn [set_parsers n_parsers] in Hq. unfold push_parser in Hq. destruct (Nat.eqb _ 255); [destruct Hq|].
      apply in_app_or in Hq as [Hq|[<-|[]]].
      * destruct B1 as [_ [[_ HC2] _]]. eapply HC2; eauto.
      * destruct Ht as [<-|Ht]; [exact B2|]. cbn [p_kind] in Ht. destruct (p_kind p); try (destruct Ht; fail). destruct A2. destruct Ht as [<-|[<-|[]]]; auto.
Qed.

Definition inner_fr (inner : ctx -> amode -> option nat -> json -> option nat -> ares) : Prop :=
  forall cx mode dag conf next, closedN N (c_nodes cx) -> oge N dag -> oge N next ->
  opost (fun x => cframe N cx (fst x) /\ match snd x with Some (d, n) => oge N d /\ oge N n | None => True end) (inner cx mode dag conf next).

Lemma loop_fr addp inner (HA : addp_fr addp) (HI : inner_fr inner) mode : forall l cx dag next pnext,
  closedN N (c_nodes cx) -> oge N dag -> oge N next -> oge N pnext ->
  opost (fun x => cframe N cx (fst x) /\ match snd x with Some (d, n) => oge N d /\ oge N n | None => True end) (addParsers_loop e addp inner cx mode l dag next pnext).
Proof.
  induction l as [|j l IH]; intros cx dag next pnext HC Hd Hn Hp; cbn [addParsers_loop].
  - destruct mode; cbn; auto using cframe_refl.
  - eapply (opost_bind (fun x => cframe N cx (fst x) /\ match snd x with Some (d, n) => oge N d /\ oge N n | None => True end)).
    + destruct j; try (eapply opost_bind; [apply (addInstance_fr addp HA _ cx dag next); auto|]; intros [cx1 [nx|]] [A1 A2]; cbn; auto; fail).
      eapply opost_bind; [apply (HI cx mode dag (JArr l0) next); auto|]. intros [cx1 [[ld nx]|]] [A1 A2]; cbn in *; auto. destruct mode; tauto.
    + intros [cx1 [[d1 n1]|]] [A1 A2]; cbn [fst snd] in *; [|cbn; auto]. destruct A2 as [A2 A3].
      destruct mode; (eapply opost_mono; [apply IH; auto; try apply A1; exact I|]); intros x [B1 B2]; (split; [eapply cframe_trans; eauto|auto]).
Qed.

Lemma addInternal_fr : forall fuel, inner_fr (addInternal e fuel).
Proof.
  induction fuel as [|f IH]; intros cx mode dag conf next HC Hd Hn; [exact I|]. cbn [addInternal].
  match goal with |- opost _ (addInternal_step e ?a _ _ _ _ _ _) => set (addp := a) end.
  assert (HA : addp_fr addp).
  { intros cx1 n conf1 HC1 Hn1. unfold addp. eapply opost_bind; [apply (IH cx1 Seq (Some n) conf1 None); auto; exact I|]. intros [cx2 [[d2 n2]|]] [A1 A2]; cbn in *; tauto. }
  unfold addInternal_step. destruct conf as [| | | | |l|l]; try (cbn; auto using cframe_refl; fail).
  - apply (loop_fr addp _ HA IH); auto.
  - destruct (jget (JObj l) "type") as [tv|]; [|exact I]. destruct tv; try exact I; apply opost_any; intros typ;
    (destruct (text_eqb typ (L "alternative"));
     [destruct (jget (JObj l) "parser") as [v|]; [|cbn; auto using cframe_refl]; destruct v; try (cbn; auto using cframe_refl; fail); apply (loop_fr addp _ HA IH); auto
     |eapply opost_bind; [apply (addInstance_fr addp HA (JObj l) cx dag next); auto|]; intros [cx1 [nx|]] [A1 A2]; cbn in *; auto; split; auto; destruct mode; auto]).
Qed.
End Frame.

Lemma closed_all h : closedN (List.length h) h.
Proof. split; auto. intros i n p t Hi HN. apply live_lt in Hi. lia. Qed.

(** [ln_newParser] leaves every existing node exactly as it was. *)
Lemma newParser_same e f cx conf :
  opost (fun x => fst x = set_nodes cx (c_nodes (fst x)) /\ sameN (List.length (c_nodes cx)) (c_nodes cx) (c_nodes (fst x)) /\ List.length (c_nodes cx) <= List.length (c_nodes (fst x)))
    (newParser e (fun cx d j => do* (cx, r) := addInternal e f cx Seq (Some d) j None in EOk (cx, match r with None => None | Some (en, _) => Some en end)) cx conf).
Proof.
  eapply opost_mono; [apply (newParser_fr e (List.length (c_nodes cx)))|].
  - intros cx1 n conf1 HC1 Hn1. eapply opost_bind; [apply (addInternal_fr e (List.length (c_nodes cx)) f cx1 Seq (Some n) conf1 None); auto; exact I|]. intros [cx2 [[d2 n2]|]] [A1 A2]; cbn in *; tauto.
  - apply closed_all.
  - intros x [[A1 [A2 [A3 A4]]] _]. auto.
Qed.
