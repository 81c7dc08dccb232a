(** * LabelFacts: whatever is loaded, user-defined types are referred to by valid numbers, and
    the ends of rules and types know their file. *)
From Verif Require Import Base Parsers Engine Pdag Samp GraphSpec History BaseFacts EngineFacts2 HeapFacts DeleteFacts BuildFacts BuildFacts2 BuildFacts3 FrameFacts OptFacts LoadFacts.
From Coq Require Import ZifyBool ZifyNat ZifyN Permutation.

Lemma ebind_assoc {A B C} (x : er A) (f : A -> er B) (g : B -> er C) : (do* b := (do* a := x in f a) in g b) = (do* a := x in do* b := f a in g b).
Proof. destruct x; reflexivity. Qed.

(** [lab]: nodes of the graphs of rules and types (not inside repeat fields) *)
Definition pok (lab : nat -> bool) (T len : nat) (b : bool) (p : prs) : Prop :=
  p_child p < len /\ lab (p_child p) = b /\ (forall ti, p_kind p = KCustom ti -> ti < T).
Definition linv (lab : nat -> bool) (T : nat) (h : list (option node)) : Prop := forall i n, live h i n ->
  (lab i = true -> n_term n = true -> n_file n <> None) /\ Forall (pok lab T (List.length h) (lab i)) (n_parsers n).
Definition okl (lab : nat -> bool) (h : list (option node)) (b : bool) (o : option nat) : Prop :=
  match o with Some i => i < List.length h /\ lab i = b | None => True end.
(** [h'] extends [h] *)
Definition lext (lab : nat -> bool) (h : list (option node)) (lab' : nat -> bool) (h' : list (option node)) : Prop :=
  List.length h <= List.length h' /\ forall i, i < List.length h -> lab' i = lab i.
Lemma lext_refl lab h : lext lab h lab h. Proof. split; auto. Qed.
Lemma lext_trans a h b h1 c h2 : lext a h b h1 -> lext b h1 c h2 -> lext a h c h2.
Proof. intros [H1 H2] [K1 K2]. split; [lia|]. intros i Hi. rewrite K2, H2; auto. lia. Qed.
Lemma okl_ext lab h lab' h' b o : lext lab h lab' h' -> okl lab h b o -> okl lab' h' b o.
Proof. intros [H1 H2]. destruct o as [i|]; [|auto]. cbn. intros [K1 K2]. split; [lia|]. rewrite H2; auto. Qed.
Lemma lext_len lab h h' : List.length h' = List.length h -> lext lab h lab h'. Proof. intros E. split; [lia|auto]. Qed.

Lemma linv_upd lab T h i f : linv lab T h ->
  (forall n, live h i n -> (lab i = true -> n_term (f n) = true -> n_file (f n) <> None) /\ Forall (pok lab T (List.length h) (lab i)) (n_parsers (f n))) -> linv lab T (upd_node h i f).
Proof.
  intros H Hf j n Hj. unfold upd_node. rewrite upd_nth_length. apply live_upd in Hj as [[_ Hj]|[<- (n0 & Hn0 & ->)]]; [apply H; exact Hj|]. apply Hf. exact Hn0.
Qed.
Lemma linv_free lab T h i : linv lab T h -> linv lab T (free_nth h i).
Proof. intros H j n Hj. unfold free_nth. rewrite upd_nth_length. apply live_free in Hj as [_ Hj]. apply H. exact Hj. Qed.
Lemma live_lt h i n : live h i n -> i < List.length h. Proof. intros H. apply nth_error_Some. unfold live in H. congruence. Qed.

Lemma pdagDelete_lab lab T : forall f h i, linv lab T h -> opost (fun h' => linv lab T h' /\ List.length h' = List.length h) (pdagDelete f h i).
Proof.
  induction f as [|f IH]; intros h i H; [exact I|]. rewrite pdagDelete_unfold. apply opost_any. intros n. cbv zeta.
  assert (H1 : linv lab T (upd_node h i (fun n0 => set_refcnt n0 (n_refcnt n - 1)))).
  { apply linv_upd; auto. intros m Hm. apply (H _ _ Hm). }
  assert (L1 : List.length (upd_node h i (fun n0 => set_refcnt n0 (n_refcnt n - 1))) = List.length h) by (unfold upd_node; apply upd_nth_length).
  destruct (Z.ltb 0 _); [split; auto|].
  assert (HL : forall l h, linv lab T h -> opost (fun h' => linv lab T h' /\ List.length h' = List.length h) (del_list f h l)).
  { clear - IH. induction l as [|t l IHl]; intros h H; cbn [del_list]; [split; auto|]. eapply opost_bind; [apply IH; exact H|].
    intros h1 [A B]. eapply opost_mono; [apply IHl; exact A|]. intros h2 [C D]. split; auto. lia. }
  eapply opost_bind; [apply HL; exact H1|]. intros h2 [A B]. unfold free_node. apply opost_any. intros _. cbn. split; [apply linv_free; exact A|].
  unfold free_nth. rewrite upd_nth_length. lia.
Qed.

Definition set_lab (lab : nat -> bool) (k : nat) (b : bool) (i : nat) : bool := if Nat.eqb i k then b else lab i.
Lemma new_ext lab h b : lext lab h (set_lab lab (List.length h) b) (h ++ [Some new_node]).
Proof. split; [rewrite app_length; lia|]. intros i Hi. unfold set_lab. destruct (Nat.eqb_spec i (List.length h)); [lia|reflexivity]. Qed.
Lemma linv_ext lab T h lab' T' h' : linv lab T h -> lext lab h lab' h' -> T <= T' -> forall i n, live h i n ->
  (lab' i = true -> n_term n = true -> n_file n <> None) /\ Forall (pok lab' T' (List.length h') (lab' i)) (n_parsers n).
Proof.
  intros H [E1 E2] HT i n Hi. destruct (H _ _ Hi) as [A B]. pose proof (live_lt _ _ _ Hi). rewrite E2 by lia. split; auto.
  eapply Forall_impl; [|exact B]. intros p (P1 & P2 & P3). split; [lia|]. split; [rewrite E2; auto|]. intros ti Ht. specialize (P3 _ Ht). lia.
Qed.
Lemma linv_new lab T h b : linv lab T h -> linv (set_lab lab (List.length h) b) T (h ++ [Some new_node]).
Proof.
  intros H i n Hi. apply live_app in Hi as [Hi|[-> E]].
  - eapply linv_ext; [exact H|apply new_ext|lia|exact Hi].
  - injection E as <-. cbn. split; [discriminate|constructor].
Qed.
Lemma new_okl lab h b : okl (set_lab lab (List.length h) b) (h ++ [Some new_node]) b (Some (List.length h)).
Proof. cbn. rewrite app_length. cbn. split; [lia|]. unfold set_lab. rewrite Nat.eqb_refl. reflexivity. Qed.

(** ** Adding fields *)
Section Add.
Variable e : env.

(** [x] extends [cx] and its graph is fine *)
Definition lres {A} (lab : nat -> bool) (cx : ctx) (Q : (nat -> bool) -> list (option node) -> A -> Prop) (x : ctx * A) : Prop :=
  fst x = set_nodes cx (c_nodes (fst x)) /\ exists lab', linv lab' (List.length (c_types cx)) (c_nodes (fst x)) /\
  lext lab (c_nodes cx) lab' (c_nodes (fst x)) /\ Q lab' (c_nodes (fst x)) (snd x).
Definition linvx (lab : nat -> bool) (cx : ctx) : Prop := linv lab (List.length (c_types cx)) (c_nodes cx).

Lemma lres_bind {A B} lab cx (Q : (nat -> bool) -> list (option node) -> A -> Prop) (R : (nat -> bool) -> list (option node) -> B -> Prop) x f :
  opost (lres lab cx Q) x ->
  (forall cx' lab' a, cx' = set_nodes cx (c_nodes cx') -> linvx lab' cx' -> lext lab (c_nodes cx) lab' (c_nodes cx') -> Q lab' (c_nodes cx') a -> opost (lres lab' cx' R) (f (cx', a))) ->
  opost (lres lab cx R) (do* y := x in f y).
Proof.
  intros H HF. eapply opost_bind; [exact H|]. intros [cx' a] (E & lab' & HI & HE & HQ). cbn [fst snd] in *.
  assert (HT : c_types cx' = c_types cx) by (rewrite E; reflexivity).
  eapply opost_mono; [apply (HF cx' lab' a E); auto; unfold linvx; rewrite HT; exact HI|].
  intros [cx2 b] (E2 & lab2 & HI2 & HE2 & HR). cbn [fst snd] in *. split; cbn [fst].
  - rewrite E2, E. reflexivity.
  - exists lab2. cbn [fst snd]. rewrite HT in HI2. split; auto. split; auto. eapply lext_trans; eauto.
Qed.
Lemma lres_ret {A} lab cx (Q : (nat -> bool) -> list (option node) -> A -> Prop) (a : A) : linvx lab cx -> Q lab (c_nodes cx) a -> lres lab cx Q (cx, a).
Proof. intros H HQ. split; [apply set_nodes_self|]. exists lab. split; auto. split; [apply lext_refl|exact HQ]. Qed.
Lemma lres_set {A} lab lab' cx h (Q : (nat -> bool) -> list (option node) -> A -> Prop) (a : A) :
  linv lab' (List.length (c_types cx)) h -> lext lab (c_nodes cx) lab' h -> Q lab' h a -> lres lab cx Q (set_nodes cx h, a).
Proof. intros H HE HQ. split; [reflexivity|]. exists lab'. auto. Qed.

Definition end_okl (b : bool) (lab : nat -> bool) (h : list (option node)) (r : option (option nat)) : Prop :=
  match r with Some o => okl lab h b o | None => True end.
Definition pair_okl (b : bool) (lab : nat -> bool) (h : list (option node)) (r : option (option nat * option nat)) : Prop :=
  match r with Some (d, nx) => okl lab h b d /\ okl lab h b nx | None => True end.

Definition addp_ok (addp : ctx -> nat -> json -> er (ctx * option (option nat))) : Prop :=
  forall lab cx d j b, linvx lab cx -> okl lab (c_nodes cx) b (Some d) -> opost (lres lab cx (end_okl b)) (addp cx d j).

Definition any {A} (lab : nat -> bool) (h : list (option node)) (a : A) : Prop := True.

Section Step.
Variable addp : ctx -> nat -> json -> er (ctx * option (option nat)).
Hypothesis HA : addp_ok addp.

(** the four-tuple of [repeat_conf] as a pair *)
Definition rc (x : er (ctx * option nat * option nat * bool)) : er (ctx * (option nat * option nat * bool)) :=
  do* y := x in EOk (fst (fst (fst y)), (snd (fst (fst y)), snd (fst y), snd y)).

Lemma repeat_conf_lab : forall l pn wn permit lab cx, linvx lab cx -> opost (lres lab cx any) (rc (repeat_conf e addp l pn wn permit cx)).
Proof.
  induction l as [|[k v] l IH]; intros pn wn permit lab cx H; cbn [repeat_conf]; [apply lres_ret; auto; exact I|].
  assert (HN : forall (cont stop : ctx -> er (ctx * option nat * option nat * bool)),
    (forall lab' cx', linvx lab' cx' -> opost (lres lab' cx' any) (rc (cont cx'))) -> (forall lab' cx', linvx lab' cx' -> opost (lres lab' cx' any) (rc (stop cx'))) ->
    opost (lres lab cx any) (rc (do* (cx', en) := addp (set_nodes cx (c_nodes cx ++ [Some new_node])) (List.length (c_nodes cx)) v in
        match en with None => stop cx' | Some None => EUb NullDeref | Some (Some en) => cont (set_nodes cx' (upd_node (c_nodes cx') en set_term)) end))).
  { intros cont stop Hc Hs. set (cx1 := set_nodes cx (c_nodes cx ++ [Some new_node])). set (lab1 := set_lab lab (List.length (c_nodes cx)) false).
    assert (H1 : linvx lab1 cx1) by (apply linv_new; exact H).
    assert (X : opost (lres lab1 cx1 any) (rc (do* (cx', en) := addp cx1 (List.length (c_nodes cx)) v in
        match en with None => stop cx' | Some None => EUb NullDeref | Some (Some en) => cont (set_nodes cx' (upd_node (c_nodes cx') en set_term)) end))).
    { unfold rc. rewrite ebind_assoc. eapply lres_bind; [apply (HA lab1 cx1 _ v false H1); apply new_okl|]. intros cx' lab' en E H' HE Hen.
      destruct en as [[en|]|]; [|exact I|apply Hs; exact H'].
      assert (HS : linv lab' (List.length (c_types cx')) (upd_node (c_nodes cx') en set_term)).
      { apply linv_upd; [exact H'|]. intros n Hn. destruct Hen as [_ Hb]. rewrite Hb. split; [discriminate|]. rewrite <- Hb. apply (H' _ _ Hn). }
      eapply opost_mono; [apply (Hc lab' (set_nodes cx' (upd_node (c_nodes cx') en set_term))); exact HS|].
      intros [cx2 r] (E2 & lab2 & I2 & X2 & _). cbn [fst snd c_nodes set_nodes c_types] in *. split; cbn [fst snd].
      - rewrite E2. reflexivity.
      - exists lab2. split; auto. split; [|exact I]. split; [destruct X2 as [X2 _]; unfold upd_node in X2; rewrite upd_nth_length in X2; exact X2|].
        intros i Hi. destruct X2 as [_ X2]. apply X2. unfold upd_node. rewrite upd_nth_length. exact Hi. }
    eapply opost_mono; [exact X|]. intros [cx2 r] (E2 & lab2 & I2 & X2 & _). cbn [fst snd] in *. split; cbn [fst snd].
    - rewrite E2. reflexivity.
    - exists lab2. split; auto. split; [|exact I]. eapply lext_trans; [apply (new_ext lab (c_nodes cx) false)|exact X2]. }
  destruct (text_eqb k (L "parser")).
  - unfold rc. rewrite ebind_assoc. apply opost_any. intros good. destruct (negb good); [apply lres_ret; auto; exact I|]. unfold newPDAG.
    apply HN; [intros lab' cx' H'; apply IH; exact H'|]. intros lab' cx' H'. apply lres_ret; auto. exact I.
  - destruct (text_eqb k (L "while")).
    + unfold newPDAG. apply HN; [intros lab' cx' H'; apply IH; exact H'|]. intros lab' cx' H'. apply lres_ret; auto. exact I.
    + destruct (caseeq k _); apply IH; exact H.
Qed.

Lemma construct_repeat_lab l lab cx : linvx lab cx -> opost (lres lab cx (fun _ _ k => forall ti, k <> KCustom ti)) (construct_repeat e addp l cx).
Proof.
  intros H. unfold construct_repeat. pose proof (repeat_conf_lab l None None false lab cx H) as HR. unfold rc in HR.
  destruct (repeat_conf e addp l None None false cx) as [[[[cx1 pn] wn] permit]|u]; [|exact I]. cbn [ebind opost fst snd] in HR. cbn [ebind].
  destruct HR as (E & lab1 & I1 & X1 & _). cbn [fst snd] in *. assert (HT : c_types cx1 = c_types cx) by (rewrite E; reflexivity).
  assert (HD : forall h o, linv lab1 (List.length (c_types cx)) h -> opost (fun h' => linv lab1 (List.length (c_types cx)) h' /\ List.length h' = List.length h)
     (match o with None => EOk h | Some n => pdagDelete (heap_fuel h) h n end)).
  { intros h [n|] Hh; [apply pdagDelete_lab; exact Hh|split; auto]. }
  assert (HF : opost (lres lab cx (fun _ _ k => forall ti, k <> KCustom ti)) (let del (h : list (option node)) o :=
        match o with None => EOk h | Some n => pdagDelete (heap_fuel h) h n end in
      do* h := del (c_nodes cx1) pn in do* h := del h wn in EOk (set_nodes cx1 h, KSimple (MNoData (L "repeat"))))).
  { cbv zeta. eapply opost_bind; [apply HD; exact I1|]. intros h1 [A1 B1]. eapply opost_bind; [apply HD; exact A1|]. intros h2 [A2 B2].
    cbn [opost]. split; cbn [fst snd]; [rewrite E; reflexivity|]. exists lab1. split; [exact A2|]. split; [|discriminate].
    eapply lext_trans; [exact X1|]. apply lext_len. cbn. lia. }
  destruct pn as [p|]; [destruct wn as [w|]|]; [|exact HF|exact HF]. cbn [opost]. split; cbn [fst snd]; [exact E|]. exists lab1. split; auto. split; auto. discriminate.
Qed.

Lemma newParser_lab conf lab cx : linvx lab cx ->
  opost (lres lab cx (fun _ _ op => forall p, op = Some p -> forall ti, p_kind p = KCustom ti -> ti < List.length (c_types cx))) (newParser e addp cx conf).
Proof.
  intros H. unfold newParser. destruct (jget conf "type") as [tv|]; [|apply lres_ret; auto; discriminate].
  assert (X : forall r, (forall typ, opost (lres lab cx (fun _ _ op => forall p, op = Some p -> forall ti, p_kind p = KCustom ti -> ti < List.length (c_types cx))) (r typ)) ->
    opost (lres lab cx (fun _ _ op => forall p, op = Some p -> forall ti, p_kind p = KCustom ti -> ti < List.length (c_types cx)))
      (match tv with JNull => EOk (cx, None) | _ => do* typ := need_str e tv in r typ end)).
  { intros r Hr. destruct tv; [apply lres_ret; auto; discriminate|..]; (apply opost_any; exact Hr). }
  apply X. clear X. intros typ. cbv zeta. destruct (negb _); [apply lres_ret; auto; discriminate|].
  apply opost_any. intros nm.
  destruct (if match typ with c :: _ => ceq c "@" | [] => false end then findType (c_types cx) typ 0 else None) as [ti|] eqn:EF.
  - cbn [ebind]. apply lres_ret; auto. intros p [= <-] ti' [= <-]. destruct (match typ with c :: _ => ceq c "@" | [] => false end); [|discriminate].
    apply findType_nth in EF as (j & d & -> & Hj). cbn. apply nth_error_Some. congruence.
  - destruct (text_eqb typ (L "repeat")).
    + rewrite ebind_assoc. eapply lres_bind; [apply construct_repeat_lab; exact H|]. intros cx' lab' k E H' HE HK. cbn [ebind]. apply lres_ret; auto.
      intros p [= <-] ti Hk. cbn in Hk. destruct (HK _ Hk).
    + destruct (simple_type e typ _) as [[prio m]|]; [|exact I]. rewrite ebind_assoc. apply opost_any. intros m'. cbn [ebind]. apply lres_ret; auto. intros p [= <-] ti Hk. discriminate.
Qed.

Lemma find_same_in : forall ps k conf c, find_same ps k conf = Some c -> exists p, In p ps /\ p_child p = c.
Proof. induction ps as [|p ps IH]; intros k conf c; cbn [find_same]; [discriminate|]. destruct (_ && _)%bool; [intros [= <-]; exists p; split; auto; left; reflexivity|]. intros H. destruct (IH _ _ _ H) as (q & Hq & E). exists q. split; auto. right; auto. Qed.

Lemma addInstance_lab conf dag next lab cx b : linvx lab cx -> okl lab (c_nodes cx) b dag -> okl lab (c_nodes cx) b next ->
  opost (lres lab cx (fun lab h r => okl lab h b r)) (addInstance e addp cx conf dag next).
Proof.
  intros H Hd Hn. unfold addInstance. eapply lres_bind; [apply newParser_lab; exact H|]. intros cx1 lab1 op E1 H1 X1 Hop.
  pose proof (okl_ext _ _ _ _ _ _ X1 Hd) as Hd1. pose proof (okl_ext _ _ _ _ _ _ X1 Hn) as Hn1.
  assert (HT : c_types cx1 = c_types cx) by (rewrite E1; reflexivity). rewrite <- HT in Hop.
  destruct op as [p|]; [|apply lres_ret; auto; exact I]. specialize (Hop p eq_refl). destruct dag as [d|]; [|exact I]. cbn [okl] in Hd1. destruct Hd1 as [Hd1 Hd2].
  destruct (get_node (c_nodes cx1) d) as [n|] eqn:EG; [|exact I]. apply get_node_live in EG. cbn [ebind].
  destruct (find_same (n_parsers n) (p_kind p) conf) as [child|] eqn:EF.
  - apply find_same_in in EF as (q & Hq & Ec). destruct (H1 _ _ EG) as [_ HP]. rewrite Forall_forall in HP. destruct (HP _ Hq) as (P1 & P2 & _).
    assert (HD : forall h i, linv lab1 (List.length (c_types cx1)) h -> List.length h = List.length (c_nodes cx1) ->
      opost (fun h' => linv lab1 (List.length (c_types cx1)) h' /\ List.length h' = List.length (c_nodes cx1)) (pdagDelete (heap_fuel h) h i)).
    { intros h i Hh Hl. eapply opost_mono; [apply pdagDelete_lab; exact Hh|]. intros h' [A B]. split; auto. lia. }
    eapply (opost_bind (fun h' => linv lab1 (List.length (c_types cx1)) h' /\ List.length h' = List.length (c_nodes cx1))).
    { destruct (p_kind p) as [m|a b0 pm|ti]; try (split; [exact H1|reflexivity]). eapply opost_bind; [apply HD; [exact H1|reflexivity]|]. intros h' [A B]. apply HD; auto. }
    intros h' [A B]. cbn [opost]. apply (lres_set lab1 lab1 cx1 h'); auto; [apply lext_len; exact B|]. cbn. rewrite B, <- Ec. split; [exact P1|congruence].
  - eapply lres_bind with (Q := fun lab h nn => nn < List.length h /\ lab nn = b).
    { destruct next as [nn|].
      - apply opost_any. intros m. cbn [opost]. apply (lres_set lab1 lab1); [|apply lext_len; unfold upd_node; apply upd_nth_length|unfold upd_node; rewrite upd_nth_length; exact Hn1].
        apply linv_upd; [exact H1|]. intros k Hk. apply (H1 _ _ Hk).
      - unfold newPDAG. cbn [opost]. apply (lres_set lab1 (set_lab lab1 (List.length (c_nodes cx1)) b)); [apply linv_new; exact H1|apply new_ext|apply new_okl]. }
    intros cx2 lab2 nn E2 H2 X2 [Q1 Q2]. cbv zeta. assert (HT2 : c_types cx2 = c_types cx1) by (rewrite E2; reflexivity).
    cbn [opost]. apply (lres_set lab2 lab2).
    + apply linv_upd; [exact H2|]. intros m Hm. destruct (H2 _ _ Hm) as [A B]. split; [exact A|]. cbn. unfold push_parser. destruct (Nat.eqb _ 255); [constructor|].
      apply Forall_app. split; [exact B|]. constructor; [|constructor]. split; [exact Q1|]. cbn. split; [destruct X2 as [_ X2]; rewrite (X2 _ Hd1); congruence|].
      rewrite HT2. exact Hop.
    + apply lext_len. unfold upd_node. apply upd_nth_length.
    + cbn. unfold upd_node. rewrite upd_nth_length. auto.
Qed.

Definition inner_ok (inner : ctx -> amode -> option nat -> json -> option nat -> ares) : Prop :=
  forall lab cx mode dag conf next b, linvx lab cx -> okl lab (c_nodes cx) b dag -> okl lab (c_nodes cx) b next ->
    opost (lres lab cx (pair_okl b)) (inner cx mode dag conf next).

Lemma addParsers_loop_lab inner : inner_ok inner -> forall l mode dag next pnext lab cx b, linvx lab cx -> okl lab (c_nodes cx) b dag -> okl lab (c_nodes cx) b next -> okl lab (c_nodes cx) b pnext ->
  opost (lres lab cx (pair_okl b)) (addParsers_loop e addp inner cx mode l dag next pnext).
Proof.
  intros HI. induction l as [|j l IH]; intros mode dag next pnext lab cx b H Hd Hn Hp; cbn [addParsers_loop].
  - destruct mode; apply lres_ret; auto; split; auto.
  - eapply lres_bind with (Q := pair_okl b).
    { assert (X : opost (lres lab cx (pair_okl b)) (do* (cx, r) := addInstance e addp cx j dag next in EOk (cx, match r with None => None | Some nx => Some (dag, Some nx) end))).
      { eapply lres_bind; [apply (addInstance_lab j dag next lab cx b); auto|]. intros cx1 lab1 r E1 H1 X1 Hr. cbn [opost]. apply lres_ret; auto.
        destruct r as [nx|]; cbn; auto. split; [eapply okl_ext; eauto|exact Hr]. }
      destruct j; try exact X. eapply lres_bind; [apply (HI lab cx mode dag (JArr l0) next b); auto|]. intros cx1 lab1 r E1 H1 X1 Hr. cbn [opost]. apply lres_ret; auto.
      destruct r as [[ld nx]|]; [|exact I]. destruct Hr as [R1 R2]. destruct mode; cbn; split; auto. eapply okl_ext; eauto. }
    intros cx1 lab1 r E1 H1 X1 Hr. destruct r as [[dag1 next1]|]; [|apply lres_ret; auto; exact I]. destruct Hr as [R1 R2].
    destruct mode; apply IH; auto; [exact I|]. eapply okl_ext; eauto.
Qed.

Lemma addInternal_step_lab inner : inner_ok inner -> inner_ok (addInternal_step e addp inner).
Proof.
  intros HI lab cx mode dag conf next b H Hd Hn. unfold addInternal_step. destruct conf; try (apply lres_ret; auto; exact I).
  - apply addParsers_loop_lab; auto.
  - destruct (jget _ "type") as [tv|]; [|exact I].
    assert (X : forall r, (forall typ, opost (lres lab cx (pair_okl b)) (r typ)) -> opost (lres lab cx (pair_okl b)) (match tv with JNull => EUb NullDeref | _ => do* typ := need_str e tv in r typ end)).
    { intros r Hr. destruct tv; [exact I|..]; (apply opost_any; exact Hr). }
    apply X. clear X. intros typ. destruct (text_eqb typ _).
    + destruct (jget _ "parser") as [[]|]; try (apply lres_ret; auto; exact I). apply addParsers_loop_lab; auto.
    + eapply lres_bind; [apply (addInstance_lab _ dag next lab cx b); auto|]. intros cx1 lab1 r E1 H1 X1 Hr. cbn [opost]. apply lres_ret; auto.
      destruct r as [nx|]; [|exact I]. cbn. split; [|exact Hr]. destruct mode; [exact Hr|eapply okl_ext; eauto].
Qed.
End Step.

Lemma addInternal_lab : forall fuel, inner_ok (addInternal e fuel).
Proof.
  induction fuel as [|f IH]; intros lab cx mode dag conf next b H Hd Hn; cbn [addInternal]; [exact I|].
  apply addInternal_step_lab; auto. intros lab' cx' d j b' H' Hd'.
  eapply lres_bind; [apply (IH lab' cx' Seq (Some d) j None b' H' Hd'); exact I|]. intros cx1 lab1 r E1 H1 X1 Hr. cbn [opost]. apply lres_ret; auto.
  destruct r as [[en nx]|]; [|exact I]. apply Hr.
Qed.
Lemma addParser_lab : addp_ok (addParser e).
Proof.
  intros lab cx d j b H Hd. unfold addParser. eapply lres_bind; [apply (addInternal_lab _ lab cx Seq (Some d) j None b H Hd); exact I|].
  intros cx1 lab1 r E1 H1 X1 Hr. cbn [opost]. apply lres_ret; auto. destruct r as [[en nx]|]; [|exact I]. apply Hr.
Qed.

(** ** Rules *)
Lemma add_literals_lab : forall l dag lab cx b, linvx lab cx -> okl lab (c_nodes cx) b dag -> opost (lres lab cx (end_okl b)) (add_literals e cx dag l).
Proof.
  induction l as [|c l IH]; intros dag lab cx b H Hd; cbn [add_literals]; [apply lres_ret; auto|]. destruct dag as [d|]; [|exact I].
  eapply lres_bind; [apply (addParser_lab lab cx d _ b); auto|]. intros cx1 lab1 r E1 H1 X1 Hr. destruct r as [dag1|]; [|apply lres_ret; auto; exact I]. apply IH; auto.
Qed.
Lemma add_rule_lab : forall fuel rule dag lab cx b, linvx lab cx -> okl lab (c_nodes cx) b dag -> opost (lres lab cx (end_okl b)) (add_rule e fuel cx dag rule).
Proof.
  induction fuel as [|f IH]; intros rule dag lab cx b H Hd; cbn [add_rule]; [exact I|]. destruct rule as [|c rule]; [apply lres_ret; auto|].
  destruct (literal_part (c :: rule)) as [lit rest]. eapply lres_bind; [apply (add_literals_lab _ dag lab cx b); auto|].
  intros cx1 lab1 r E1 H1 X1 Hr. destruct r as [dag1|]; [|apply lres_ret; auto; exact I]. destruct rest as [|c' rest]; [apply lres_ret; auto|].
  destruct (fieldDescr e (c' :: rest)) as [[rest' conf]|k|u]; [|apply lres_ret; auto; exact I|exact I]. destruct dag1 as [d|]; [|exact I].
  eapply lres_bind; [apply (addParser_lab lab1 cx1 d conf b); auto|]. intros cx2 lab2 r2 E2 H2 X2 Hr2. destruct r2 as [dag2|]; [|apply lres_ret; auto; exact I]. apply IH; auto.
Qed.

(** everything: rules and types are labelled *)
Definition lctx (cx : ctx) : Prop := exists lab, linvx lab cx /\ Forall (fun i => i < List.length (c_nodes cx) /\ lab i = true) (owners cx).

Lemma addSamp_lab cx rule dag tags lab : linvx lab cx -> Forall (fun i => i < List.length (c_nodes cx) /\ lab i = true) (owners cx) ->
  okl lab (c_nodes cx) true (Some dag) -> opost lctx (addSampToTree e cx rule dag tags).
Proof.
  intros H HO Hd. unfold addSampToTree. eapply opost_bind; [apply (add_rule_lab _ rule (Some dag) lab cx true H Hd)|].
  intros [cx1 r] (E & lab1 & I1 & X1 & Hr). cbn [fst snd] in *. assert (HT : c_types cx1 = c_types cx) by (rewrite E; reflexivity).
  assert (HO1 : Forall (fun i => i < List.length (c_nodes cx1) /\ lab1 i = true) (owners cx1)).
  { assert (EO : owners cx1 = owners cx) by (rewrite E; reflexivity). rewrite EO. eapply Forall_impl; [|exact HO]. intros i [A B]. destruct X1 as [X1 X2]. split; [lia|]. rewrite X2; auto. }
  destruct r as [[en|]|]; [|exact I|].
  - apply opost_any. intros n. cbn [opost]. exists lab1. unfold linvx, owners. cbn [c_nodes set_nodes c_types c_root]. rewrite HT. split.
    + apply linv_upd; [exact I1|]. intros m Hm. split; [intros _ _; discriminate|]. apply (I1 _ _ Hm).
    + unfold upd_node. rewrite upd_nth_length. rewrite <- HT. exact HO1.
  - exists lab1. unfold linvx. rewrite HT. auto.
Qed.

Lemma lctx_eq cx cx' : c_nodes cx' = c_nodes cx -> c_types cx' = c_types cx -> c_root cx' = c_root cx -> lctx cx -> lctx cx'.
Proof. intros E1 E2 E3 (lab & H & HO). exists lab. unfold linvx, owners. rewrite E1, E2, E3. auto. Qed.

Lemma owner_okl lab cx i : Forall (fun i => i < List.length (c_nodes cx) /\ lab i = true) (owners cx) -> In i (owners cx) -> okl lab (c_nodes cx) true (Some i).
Proof. intros H Hi. rewrite Forall_forall in H. exact (H _ Hi). Qed.

Lemma processRule_lab cx u : lctx cx -> opost lctx (processRule e cx u).
Proof.
  intros HL. unfold processRule. apply opost_any. intros [[tags [|c s]]|]; try exact HL. destruct HL as (lab & H & HO).
  apply (addSamp_lab cx _ (c_root cx) _ lab H HO). apply owner_okl; auto. left. reflexivity.
Qed.
Lemma processType_lab cx u : lctx cx -> opost lctx (processType e cx u).
Proof.
  intros HL. unfold processType. destruct (getTypeName u) as [[nm [|c s]]|]; try exact HL. destruct HL as (lab & H & HO).
  destruct (findType (c_types cx) nm 0) as [i|] eqn:EF.
  - apply findType_nth in EF as (j & d & -> & Hj). cbn [plus]. rewrite Hj. apply (addSamp_lab cx _ d _ lab H HO). apply owner_okl; auto. right.
    apply nth_error_In in Hj. apply (in_map snd) in Hj. exact Hj.
  - unfold newPDAG. set (lab1 := set_lab lab (List.length (c_nodes cx)) true).
    apply (addSamp_lab _ _ (List.length (c_nodes cx)) _ lab1).
    + unfold linvx. cbn [c_nodes c_types set_types set_nodes]. rewrite app_length. intros i n Hi. apply live_app in Hi as [Hi|[-> E]].
      * eapply linv_ext; [exact H|apply new_ext|cbn; lia|exact Hi].
      * injection E as <-. cbn. split; [discriminate|constructor].
    + unfold owners. cbn [c_nodes c_types set_types set_nodes c_root]. rewrite map_app. change (c_root cx :: map snd (c_types cx) ++ map snd [(nm, List.length (c_nodes cx))]) with ((c_root cx :: map snd (c_types cx)) ++ [List.length (c_nodes cx)]).
      apply Forall_app. split; [|constructor; [apply (new_okl lab (c_nodes cx) true)|constructor]].
      eapply Forall_impl; [|exact HO]. intros i [A B]. destruct (new_ext lab (c_nodes cx) true) as [X1 X2]. split; [lia|]. unfold lab1. rewrite X2; auto.
    + apply new_okl.
Qed.
Lemma processAnnotate_lab f cx u : lctx cx -> opost lctx (processAnnotate f cx u).
Proof.
  intros HL. unfold processAnnotate. destruct (skipn _ _); [exact HL|]. destruct (firstn _ u); [exact HL|]. destruct (negb _); [exact HL|].
  apply opost_any. intros [ops|]; exact HL.
Qed.

Definition load_lab (load : ctx -> text -> er (ctx * bool)) : Prop := forall cx f, lctx cx -> opost (fun x => lctx (fst x)) (load cx f).
Lemma processSamp_lab load (HL : load_lab load) af cx line : lctx cx -> opost (fun x => lctx (fst x)) (processSamp e load af cx line).
Proof.
  intros HM. unfold processSamp. destruct (getLineType line) as [[ty u]|]; [|exact HM].
  destruct (text_eqb ty _); [exact HM|]. destruct (text_eqb ty _); [destruct (c_prefix cx); [exact HM|exact I]|].
  destruct (text_eqb ty _); [eapply opost_bind; [apply processRule_lab; exact HM|auto]|].
  destruct (text_eqb ty _); [eapply opost_bind; [apply processType_lab; exact HM|auto]|].
  destruct (text_eqb ty _); [eapply opost_bind; [apply processAnnotate_lab; exact HM|auto]|].
  destruct (text_eqb ty _); [|exact HM]. apply opost_any. intros f. eapply opost_bind; [apply HL; exact HM|]. intros [cx' ok] H. exact H.
Qed.
Lemma load_lines_lab load (HL : load_lab load) af isf : forall fuel cx inp, lctx cx -> opost (fun x => lctx (fst x)) (load_lines e load af fuel isf cx inp).
Proof.
  induction fuel as [|f IH]; intros cx inp HM; cbn [load_lines]; [exact I|].
  destruct (sampRead e _ isf inp [] 0 false (c_line cx)) as [[line inp' eof ln|inp' ln]|inp' ln|]; [| |apply IH; exact HM|exact I]; [|exact HM].
  eapply opost_bind; [apply (processSamp_lab load HL); exact HM|]. intros [cx' ok] H. destruct (negb ok); [exact H|]. destruct eof; [exact H|]. apply IH. exact H.
Qed.

(** ** Optimizing *)
Section Opt.
Variable qs : list prs -> list prs.
Hypothesis HQ : permutes qs.

Lemma compact_lab lab T b : forall f h p, linv lab T h -> pok lab T (List.length h) b p ->
  opost (fun r => linv lab T (fst r) /\ List.length (fst r) = List.length h /\ pok lab T (List.length h) b (snd r)) (optLitPathCompact f h p).
Proof.
  induction f as [|f IH]; intros h p H Hp; [exact I|]. cbn [optLitPathCompact].
  destruct (negb _); [cbn; auto|]. destruct (get_node h (p_child p)) as [n|] eqn:EG; [|exact I]. apply get_node_live in EG. cbn [ebind].
  destruct (_ || _)%bool; [cbn; auto|]. destruct (n_parsers n) as [|q [|q2 r]] eqn:EP; try (cbn; auto; fail).
  destruct (negb _); [cbn; auto|]. apply opost_any. intros m. destruct (negb _); [cbn; auto|].
  destruct (p_kind p) as [[]| |]; try exact I; destruct (p_kind q) as [[]| |]; try exact I.
  assert (L1 : List.length (free_nth h (p_child p)) = List.length h) by (unfold free_nth; apply upd_nth_length).
  eapply opost_mono; [apply IH; [apply linv_free; exact H|]|].
  - rewrite L1. destruct (H _ _ EG) as [_ HF]. rewrite EP in HF. inversion HF as [|? ? (Q1 & Q2 & Q3) _]; subst. destruct Hp as (P1 & P2 & P3).
    split; [exact Q1|]. cbn. split; [congruence|discriminate].
  - intros [h' p'] (A & B & C). cbn [fst snd] in *. rewrite L1 in *. auto.
Qed.
Lemma put_lab lab T h nd ps : linv lab T h -> Forall (pok lab T (List.length h) (lab nd)) ps -> linv lab T (put h nd ps).
Proof. intros H HP. apply linv_upd; auto. intros n Hn. split; [apply (H _ _ Hn)|exact HP]. Qed.
Lemma put_len h nd ps : List.length (put h nd ps) = List.length h. Proof. unfold put, upd_node. apply upd_nth_length. Qed.

Lemma component_lab lab T : forall f h nd, linv lab T h -> opost (fun h' => linv lab T h' /\ List.length h' = List.length h) (componentOptimize qs f h nd).
Proof.
  induction f as [|f IH]; intros h nd H; [exact I|]. rewrite componentOptimize_unfold.
  destruct (get_node h nd) as [n|] eqn:EG; [|exact I]. apply get_node_live in EG. cbn [ebind].
  assert (HP : Forall (pok lab T (List.length h) (lab nd)) (if Nat.ltb 1 (List.length (n_parsers n)) then qs (n_parsers n) else n_parsers n)).
  { pose proof (proj2 (H _ _ EG)) as HF. destruct (Nat.ltb _ _); auto. eapply Permutation_Forall; [apply Permutation_sym; apply HQ|exact HF]. }
  cbv zeta. revert HP. generalize (if Nat.ltb 1 (List.length (n_parsers n)) then qs (n_parsers n) else n_parsers n). intros ps HP.
  assert (HD : Forall (pok lab T (List.length h) (lab nd)) []) by constructor. assert (H1 : linv lab T (put h nd ps)) by (apply put_lab; auto).
  assert (HL : List.length (put h nd ps) = List.length h) by apply put_len.
  revert HD H1 HL. generalize (put h nd ps). generalize (@nil prs). clear H EG. generalize dependent (List.length h). clear h. intros len HP.
  induction ps as [|p ps IHp]; intros dn h HD H HL; [split; auto|]. inversion HP as [|? ? Hp HP']; subst len. rewrite opt_go_cons.
  eapply opost_bind; [apply (compact_lab lab T (lab nd)); auto|]. intros [h1 p1] (A & B & C). cbn [fst snd] in *. cbv zeta.
  assert (HA : Forall (pok lab T (List.length h1) (lab nd)) (dn ++ p1 :: ps)) by (rewrite B; apply Forall_app; split; auto).
  eapply opost_bind; [apply IH; apply put_lab; eauto|]. intros h2 [D1 D2]. unfold upd_node in D2. rewrite upd_nth_length in D2.
  apply IHp; auto; [apply Forall_app; split; auto|lia].
Qed.
Lemma optimize_all_lab lab T : forall l h, linv lab T h -> opost (fun h' => linv lab T h' /\ List.length h' = List.length h) (optimize_all qs h l).
Proof.
  induction l as [|i l IH]; intros h H; [split; auto|]. cbn [optimize_all]. eapply opost_bind; [apply component_lab; exact H|]. intros h1 [A B].
  apply opost_any. intros _. eapply opost_mono; [apply IH; exact A|]. intros h2 [C D]. split; auto. lia.
Qed.
Lemma optimize_lab cx : lctx cx -> opost lctx (optimize qs cx).
Proof.
  intros (lab & H & HO). unfold optimize. eapply opost_bind; [apply (optimize_all_lab lab (List.length (c_types cx))); exact H|]. intros h [A B].
  cbn [opost]. exists lab. unfold linvx, owners. cbn. rewrite B. auto.
Qed.

Lemma loadSamples_lab : forall fuel level, load_lab (loadSamples e qs fuel level).
Proof.
  induction fuel as [|f IH]; intros level cx file HM; cbn [loadSamples]; [exact I|].
  destruct (files e file) as [[|c content]|]; try exact HM. destruct (_ && _)%bool; [exact HM|]. destruct (negb _); [exact I|].
  eapply opost_bind; [apply (load_lines_lab _ (IH (S level))); exact HM|]. intros [cx' ok] H. destruct (negb ok); [exact H|].
  destruct (Nat.eqb level 1); [|exact H]. eapply opost_bind; [apply optimize_lab; exact H|]. auto.
Qed.
Lemma loadString_lab fuel cx s : lctx cx -> opost (fun x => lctx (fst x)) (loadString e qs fuel cx s).
Proof.
  intros HM. unfold loadString. eapply opost_bind; [apply (load_lines_lab _ (loadSamples_lab fuel 2)); exact HM|]. intros [cx' ok] H. destruct (negb ok); [exact H|].
  eapply opost_bind; [apply optimize_lab; exact H|]. auto.
Qed.

Lemma apply_log_lab log cx : lctx cx -> lctx (apply_log cx log).
Proof.
  intros (lab & H & HO). exists lab. unfold linvx, owners, apply_log. cbn [c_nodes c_types set_nodes c_root].
  assert (X : forall l h, linv lab (List.length (c_types cx)) h -> let h' := fold_left (fun h x => upd_node h (fst x) (fun n => bump n (snd x))) l h in linv lab (List.length (c_types cx)) h' /\ List.length h' = List.length h).
  { induction l as [|x l IH]; intros h Hh; cbn [fold_left]; [split; auto|].
    destruct (IH (upd_node h (fst x) (fun n => bump n (snd x)))) as [A B].
    - apply linv_upd; auto. intros n Hn. apply (Hh _ _ Hn).
    - split; [exact A|]. etransitivity; [exact B|]. unfold upd_node. apply upd_nth_length. }
  destruct (X (rev log) _ H) as [A B]. split; [exact A|]. cbv zeta in B. rewrite B. exact HO.
Qed.

Theorem history_lab cx : history e qs cx -> lctx cx.
Proof.
  induction 1 as [o|cx fuel file cx' ok _ IH E|cx fuel s cx' ok _ IH E|cx fuel msg js ok o cx' _ IH E].
  - exists (fun _ => true). split.
    + intros i n Hi. destruct i as [|i]; [|destruct i; discriminate]. injection Hi as <-. cbn. split; [discriminate|constructor].
    + constructor; [cbn; split; auto|constructor].
  - unfold loadFile in E. pose proof (loadSamples_lab fuel 1 cx file IH) as HH. rewrite E in HH. exact HH.
  - pose proof (loadString_lab fuel cx s IH) as HH. rewrite E in HH. exact HH.
  - unfold normalize in E. apply ebind_ok in E as ([ok1 s] & _ & E). cbv zeta in E.
    assert (X : cx' = apply_log cx (r_log s)); [|subst; apply apply_log_lab; exact IH].
    destruct ok1.
    + destruct (r_end s); [|discriminate]. apply ebind_ok in E as (? & _ & E). apply ebind_ok in E as (? & _ & E). apply ebind_ok in E as (? & _ & E). congruence.
    + destruct (Nat.ltb _ _); [discriminate|]. congruence.
Qed.
End Opt.
End Add.
