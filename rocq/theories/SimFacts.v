(** * SimFacts: what is done with a context depends on its rules only. *)
From Verif Require Import Base Parsers Engine Pdag Samp GraphSpec SimSpec BaseFacts EngineFacts2 HeapFacts DeleteFacts BuildFacts BuildFacts2 BuildFacts3 FrameFacts EngineHist.
From Coq Require Import ZifyBool ZifyNat ZifyN.

(** both results alike: related values, or the same failure *)
Definition rsim {A B} (R : A -> B -> Prop) (x : er A) (y : er B) : Prop :=
  match x, y with EOk a, EOk b => R a b | EUb u, EUb v => u = v | _, _ => False end.
Lemma rsim_bind {A B A' B'} (R : A -> A' -> Prop) (Q : B -> B' -> Prop) x y (f : A -> er B) (g : A' -> er B') :
  rsim R x y -> (forall a b, R a b -> rsim Q (f a) (g b)) -> rsim Q (do* a := x in f a) (do* b := y in g b).
Proof. destruct x, y; cbn; try tauto. intros; subst; auto. Qed.
Lemma rsim_eq {A B B'} (Q : B -> B' -> Prop) (x : er A) (f : A -> er B) (g : A -> er B') :
  (forall a, rsim Q (f a) (g a)) -> rsim Q (do* a := x in f a) (do* b := x in g b).
Proof. destruct x; cbn; auto. Qed.
Lemma rsim_mono {A B} (R Q : A -> B -> Prop) x y : rsim R x y -> (forall a b, R a b -> Q a b) -> rsim Q x y.
Proof. destruct x, y; cbn; auto. Qed.

Definition hsim := Forall2 alike_slot.
Lemma alike_refl n : alike_node n n. Proof. repeat split. Qed.
Lemma slot_refl a : alike_slot a a. Proof. destruct a; cbn; auto using alike_refl. Qed.
Lemma hsim_refl h : hsim h h. Proof. induction h; constructor; auto using slot_refl. Qed.
Lemma hsim_len h h' : hsim h h' -> List.length h = List.length h'. Proof. induction 1; cbn; congruence. Qed.
Lemma same_graph_refl c : same_graph c c. Proof. split; [apply hsim_refl|auto]. Qed.
Lemma alike_sym n m : alike_node n m -> alike_node m n. Proof. unfold alike_node. intuition congruence. Qed.
Lemma alike_trans a b c : alike_node a b -> alike_node b c -> alike_node a c. Proof. unfold alike_node. intuition congruence. Qed.
Lemma slot_trans a b c : alike_slot a b -> alike_slot b c -> alike_slot a c. Proof. destruct a, b, c; cbn; try tauto. apply alike_trans. Qed.
Lemma slot_sym a b : alike_slot a b -> alike_slot b a. Proof. destruct a, b; cbn; try tauto. apply alike_sym. Qed.
Lemma hsim_trans : forall a b c, hsim a b -> hsim b c -> hsim a c.
Proof. induction a; intros b c H1 H2; inversion H1; subst; inversion H2; subst; constructor; [eapply slot_trans; eauto|eapply IHa; eauto]. Qed.
Lemma hsim_sym : forall a b, hsim a b -> hsim b a. Proof. induction 1; constructor; auto using slot_sym. Qed.
Lemma same_graph_trans a b c : same_graph a b -> same_graph b c -> same_graph a c.
Proof. intros (A & B & C) (A' & B' & C'). split; [eapply hsim_trans; eauto|]. split; congruence. Qed.
Lemma same_graph_sym a b : same_graph a b -> same_graph b a.
Proof. intros (A & B & C). split; [apply hsim_sym; auto|]. auto. Qed.

Lemma get_node_sim h h' i : hsim h h' -> rsim alike_node (get_node h i) (get_node h' i).
Proof.
  intros H. unfold get_node. revert i. induction H as [|x y l l' Hxy H IH]; intros [|i]; cbn [nth_error]; try (cbn; auto; fail).
  destruct x, y; cbn in *; tauto.
Qed.
Lemma upd_nth_sim h h' i f g : hsim h h' -> (forall a b, alike_slot a b -> alike_slot (f a) (g b)) -> hsim (upd_nth h i f) (upd_nth h' i g).
Proof. intros H Hf. revert i. induction H; intros [|i]; cbn; constructor; auto. apply IHForall2. Qed.
Lemma upd_node_sim h h' i f g : hsim h h' -> (forall a b, alike_node a b -> alike_node (f a) (g b)) -> hsim (upd_node h i f) (upd_node h' i g).
Proof. intros H Hf. apply upd_nth_sim; auto. intros [a|] [b|]; cbn; auto. Qed.
Lemma free_sim h h' i : hsim h h' -> hsim (free_nth h i) (free_nth h' i).
Proof. intros H. apply upd_nth_sim; auto. cbn. auto. Qed.
Lemma new_sim h h' : hsim h h' -> hsim (h ++ [Some new_node]) (h' ++ [Some new_node]).
Proof. intros H. apply Forall2_app; auto. constructor; auto using slot_refl. Qed.
Lemma heap_fuel_sim h h' : hsim h h' -> heap_fuel h = heap_fuel h'. Proof. intros H. unfold heap_fuel. rewrite (hsim_len _ _ H). reflexivity. Qed.
Lemma set_nodes_sim c c' h h' : same_graph c c' -> hsim h h' -> same_graph (set_nodes c h) (set_nodes c' h').
Proof. intros (_ & A & B) H. split; auto. Qed.

Lemma pdagDelete_sim : forall f h h' i, hsim h h' -> rsim hsim (pdagDelete f h i) (pdagDelete f h' i).
Proof.
  induction f as [|f IH]; intros h h' i H; [reflexivity|]. rewrite !pdagDelete_unfold.
  eapply rsim_bind; [apply get_node_sim; exact H|]. intros n n' (E1 & E2 & E3 & E4). cbv zeta. rewrite <- E4, <- E1.
  set (r := (n_refcnt n - 1)%Z).
  assert (H1 : hsim (upd_node h i (fun n0 => set_refcnt n0 r)) (upd_node h' i (fun n0 => set_refcnt n0 r))).
  { apply upd_node_sim; auto. intros a b (A & B & C & D). repeat split; auto. }
  destruct (Z.ltb 0 r); [exact H1|].
  assert (HL : forall l h h', hsim h h' -> rsim hsim (del_list f h l) (del_list f h' l)).
  { clear - IH. induction l as [|t l IHl]; intros h h' H; cbn [del_list]; [exact H|]. eapply rsim_bind; [apply IH; exact H|]. intros a b Hab. apply IHl. exact Hab. }
  eapply rsim_bind; [apply HL; exact H1|]. intros a b Hab. unfold free_node.
  eapply rsim_bind; [apply get_node_sim; exact Hab|]. intros _ _ _. apply free_sim. exact Hab.
Qed.

Section Sim.
Variable e : env.
Definition psim {B} (x y : ctx * B) : Prop := same_graph (fst x) (fst y) /\ snd x = snd y.

Definition addp_sim (a a' : ctx -> nat -> json -> er (ctx * option (option nat))) : Prop :=
  forall c c' n conf, same_graph c c' -> rsim psim (a c n conf) (a' c' n conf).

Definition qsim (x y : ctx * option nat * option nat * bool) : Prop :=
  let '(c, p, w, b) := x in let '(c', p', w', b') := y in same_graph c c' /\ p = p' /\ w = w' /\ b = b'.
Lemma repeat_conf_sim a a' (HA : addp_sim a a') : forall l pn wn permit c c', same_graph c c' ->
  rsim qsim (repeat_conf e a l pn wn permit c) (repeat_conf e a' l pn wn permit c').
Proof.
  induction l as [|[k v] l IH]; intros pn wn permit c c' H; cbn [repeat_conf].
  - cbn. auto.
  - assert (HI : forall (K K' S S' : ctx -> er (ctx * option nat * option nat * bool)) n,
      (forall c c', same_graph c c' -> rsim qsim (K c) (K' c')) -> (forall c c', same_graph c c' -> rsim qsim (S c) (S' c')) -> forall c c', same_graph c c' ->
      rsim qsim (do* (cx', en) := a c n v in match en with None => S cx' | Some None => EUb NullDeref | Some (Some en) => K (set_nodes cx' (upd_node (c_nodes cx') en set_term)) end)
                (do* (cx', en) := a' c' n v in match en with None => S' cx' | Some None => EUb NullDeref | Some (Some en) => K' (set_nodes cx' (upd_node (c_nodes cx') en set_term)) end)).
    { intros K K' S S' n HK HS d d' Hd. eapply rsim_bind; [apply HA; exact Hd|]. intros [d1 en] [d1' en'] [A1 A2]. cbn [fst snd] in *. subst en'.
      destruct en as [[en|]|]; [|reflexivity|apply HS; exact A1]. apply HK. apply set_nodes_sim; auto. apply upd_node_sim; [apply A1|]. intros x y (B1 & B2 & B3 & B4). repeat split; auto. }
    pose proof (hsim_len _ _ (proj1 H)) as HL.
    assert (HN : same_graph (set_nodes c (c_nodes c ++ [Some new_node])) (set_nodes c' (c_nodes c' ++ [Some new_node]))) by (apply set_nodes_sim; auto; apply new_sim; apply H).
    destruct (text_eqb k (L "parser")); [|destruct (text_eqb k (L "while"))].
    + apply rsim_eq. intros good. destruct (negb good); [cbn; auto|]. unfold newPDAG. rewrite <- HL.
      apply (HI (repeat_conf e a l (Some (List.length (c_nodes c))) wn permit) (repeat_conf e a' l (Some (List.length (c_nodes c))) wn permit)
        (fun cx' => EOk (cx', Some (List.length (c_nodes c)), wn, permit)) (fun cx' => EOk (cx', Some (List.length (c_nodes c)), wn, permit))); auto. intros. cbn. auto.
    + unfold newPDAG. rewrite <- HL.
      apply (HI (repeat_conf e a l pn (Some (List.length (c_nodes c))) permit) (repeat_conf e a' l pn (Some (List.length (c_nodes c))) permit)
        (fun cx' => EOk (cx', pn, Some (List.length (c_nodes c)), permit)) (fun cx' => EOk (cx', pn, Some (List.length (c_nodes c)), permit))); auto. intros. cbn. auto.
    + destruct (caseeq k _); auto.
Qed.

Lemma construct_repeat_sim a a' (HA : addp_sim a a') l c c' : same_graph c c' -> rsim psim (construct_repeat e a l c) (construct_repeat e a' l c').
Proof.
  intros H. unfold construct_repeat. eapply rsim_bind; [apply (repeat_conf_sim a a' HA); exact H|].
  intros [[[c1 pn] wn] pm] [[[c1' pn'] wn'] pm'] (A1 & <- & <- & <-).
  assert (HD : forall o h h', hsim h h' -> rsim hsim (match o with None => EOk h | Some n => pdagDelete (heap_fuel h) h n end) (match o with None => EOk h' | Some n => pdagDelete (heap_fuel h') h' n end)).
  { intros [n|] h h' Hh; [|exact Hh]. rewrite (heap_fuel_sim _ _ Hh). apply pdagDelete_sim. exact Hh. }
  assert (HR : forall h h', hsim h h' -> psim (set_nodes c1 h, KSimple (MNoData (L "repeat"))) (set_nodes c1' h', KSimple (MNoData (L "repeat")))).
  { intros h h' Hh. split; cbn; auto. apply set_nodes_sim; auto. }
  destruct pn as [p|], wn as [w|]; [split; cbn; auto| | |].
  - eapply rsim_bind; [apply (HD (Some p)); apply A1|]. intros h h' Hh. eapply rsim_bind; [apply (HD None); exact Hh|]. intros; cbn; apply HR; auto.
  - eapply rsim_bind; [apply (HD None); apply A1|]. intros h h' Hh. eapply rsim_bind; [apply (HD (Some w)); exact Hh|]. intros; cbn; apply HR; auto.
  - eapply rsim_bind; [apply (HD None); apply A1|]. intros h h' Hh. eapply rsim_bind; [apply (HD None); exact Hh|]. intros; cbn; apply HR; auto.
Qed.

Lemma newParser_sim a a' (HA : addp_sim a a') conf c c' : same_graph c c' -> rsim psim (newParser e a c conf) (newParser e a' c' conf).
Proof.
  intros H. unfold newParser. pose proof (proj2 (proj2 H)) as ET. rewrite <- ET.
  assert (HNone : rsim psim (EOk (c, @None prs)) (EOk (c', None))) by (split; auto).
  destruct (jget conf "type") as [tv|]; [|exact HNone].
  destruct tv; try exact HNone; apply rsim_eq; intros typ; cbv zeta;
  (match goal with |- rsim _ (if ?b then _ else _) _ => destruct b end; [exact HNone|]; apply rsim_eq; intros name;
   match goal with |- context [findType ?a ?b ?c] => generalize (findType a b c) end; intros ft;
   destruct (if match typ with c :: _ => ceq c "@" | [] => false end then ft else None) as [ti|];
   [cbn [ebind]; split; auto|];
   destruct (text_eqb typ (L "repeat"));
   [eapply (rsim_bind (fun x y => same_graph (fst (fst x)) (fst (fst y)) /\ snd (fst x) = snd (fst y) /\ snd x = snd y));
     [eapply rsim_bind; [apply (construct_repeat_sim a a' HA _ c c' H)|]; intros [c1 k1] [c1' k1'] [A1 A2]; cbn in *; auto
     |intros [[c1 k1] pr] [[c1' k1'] pr'] (A1 & A2 & A3); cbn in *; subst; split; auto]
   |destruct (simple_type e typ _) as [[pr m]|]; [|reflexivity]; destruct m as [m|]; [|reflexivity]; cbn [ebind]; split; auto]).
Qed.

Lemma addInstance_sim a a' (HA : addp_sim a a') conf c c' dag next : same_graph c c' -> rsim psim (addInstance e a c conf dag next) (addInstance e a' c' conf dag next).
Proof.
  intros H. unfold addInstance. eapply rsim_bind; [apply (newParser_sim a a' HA conf c c' H)|]. intros [c1 op] [c1' op'] [A1 A2]. cbn [fst snd] in *. subst op'.
  destruct op as [p|]; [|split; auto]. destruct dag as [d|]; [|reflexivity].
  eapply rsim_bind; [apply (get_node_sim _ _ d (proj1 A1))|]. intros n n' (B1 & _). rewrite <- B1.
  destruct (find_same (n_parsers n) (p_kind p) conf) as [ch|].
  - eapply (rsim_bind hsim).
    + destruct (p_kind p); try apply A1. rewrite (heap_fuel_sim _ _ (proj1 A1)). eapply rsim_bind; [apply pdagDelete_sim; apply A1|]. intros h h' Hh. rewrite (heap_fuel_sim _ _ Hh). apply pdagDelete_sim. exact Hh.
    + intros h h' Hh. split; cbn; auto. apply set_nodes_sim; auto.
  - eapply (rsim_bind psim).
    + destruct next as [nn|].
      * eapply rsim_bind; [apply (get_node_sim _ _ nn (proj1 A1))|]. intros m m' (C1 & C2 & C3 & C4). split; auto. cbn [fst]. apply set_nodes_sim; auto. apply upd_node_sim; [apply A1|].
        intros x y (D1 & D2 & D3 & D4). repeat split; cbn; auto. congruence.
      * unfold newPDAG. cbn [ebind]. split; [cbn [fst]; apply set_nodes_sim; auto; apply new_sim; apply A1|]. cbn. rewrite (hsim_len _ _ (proj1 A1)). reflexivity.
    + intros [c2 nn] [c2' nn'] [C1 C2]. cbn [fst snd] in *. subst nn'. split; auto. cbn [fst]. apply set_nodes_sim; auto. apply upd_node_sim; [apply C1|].
      intros x y (D1 & D2 & D3 & D4). repeat split; cbn; auto. congruence.
Qed.

Definition inner_sim (i i' : ctx -> amode -> option nat -> json -> option nat -> ares) : Prop :=
  forall c c' mode dag conf next, same_graph c c' -> rsim psim (i c mode dag conf next) (i' c' mode dag conf next).

Lemma loop_sim a a' i i' (HA : addp_sim a a') (HI : inner_sim i i') mode : forall l c c' dag next pnext, same_graph c c' ->
  rsim psim (addParsers_loop e a i c mode l dag next pnext) (addParsers_loop e a' i' c' mode l dag next pnext).
Proof.
  induction l as [|j l IH]; intros c c' dag next pnext H; cbn [addParsers_loop].
  - destruct mode; split; auto.
  - eapply (rsim_bind psim).
    + destruct j; try (eapply rsim_bind; [apply (addInstance_sim a a' HA _ c c' dag next H)|]; intros [c1 x] [c1' x'] [A1 A2]; cbn in *; subst; split; auto; fail).
      eapply rsim_bind; [apply (HI c c' mode dag _ next H)|]. intros [c1 x] [c1' x'] [A1 A2]. cbn in *. subst. split; auto.
    + intros [c1 x] [c1' x'] [A1 A2]. cbn [fst snd] in *. subst x'. destruct x as [[d1 n1]|]; [|split; auto]. destruct mode; apply IH; exact A1.
Qed.

Lemma addInternal_sim : forall fuel, inner_sim (addInternal e fuel) (addInternal e fuel).
Proof.
  induction fuel as [|f IH]; intros c c' mode dag conf next H; [reflexivity|]. cbn [addInternal].
  match goal with |- rsim _ (addInternal_step e ?a _ _ _ _ _ _) _ => set (addp := a) end.
  assert (HA : addp_sim addp addp).
  { intros c1 c1' n conf1 H1. unfold addp. eapply rsim_bind; [apply (IH c1 c1' Seq (Some n) conf1 None H1)|]. intros [c2 x] [c2' x'] [A1 A2]. cbn in *. subst. split; auto. }
  unfold addInternal_step. destruct conf as [| | | | |l|l]; try (split; auto; fail).
  - apply (loop_sim addp addp _ _ HA IH); auto.
  - destruct (jget (JObj l) "type") as [tv|]; [|reflexivity]. destruct tv; try reflexivity; apply rsim_eq; intros typ;
    (destruct (text_eqb typ (L "alternative"));
     [destruct (jget (JObj l) "parser") as [v|]; [|split; auto]; destruct v; try (split; auto; fail); apply (loop_sim addp addp _ _ HA IH); auto
     |eapply rsim_bind; [apply (addInstance_sim addp addp HA (JObj l) c c' dag next H)|]; intros [c1 x] [c1' x'] [A1 A2]; cbn in *; subst; split; auto]).
Qed.

Lemma addParser_sim c c' dag conf : same_graph c c' -> rsim psim (addParser e c dag conf) (addParser e c' dag conf).
Proof.
  intros H. unfold addParser. eapply rsim_bind; [apply (addInternal_sim _ c c' Seq (Some dag) conf None H)|]. intros [c1 x] [c1' x'] [A1 A2]. cbn in *. subst. split; auto.
Qed.
Lemma add_literals_sim : forall l c c' dag, same_graph c c' -> rsim psim (add_literals e c dag l) (add_literals e c' dag l).
Proof.
  induction l as [|ch l IH]; intros c c' dag H; cbn [add_literals]; [split; auto|]. destruct dag as [d|]; [|reflexivity].
  eapply rsim_bind; [apply (addParser_sim c c' d _ H)|]. intros [c1 x] [c1' x'] [A1 A2]. cbn in *. subst. destruct x' as [d1|]; [apply IH; auto|split; auto].
Qed.
Lemma add_rule_sim : forall fuel c c' dag rule, same_graph c c' -> rsim psim (add_rule e fuel c dag rule) (add_rule e fuel c' dag rule).
Proof.
  induction fuel as [|f IH]; intros c c' dag rule H; cbn [add_rule]; [reflexivity|]. destruct rule as [|c0 rule]; [split; auto|].
  destruct (literal_part (c0 :: rule)) as [lit rest]. eapply rsim_bind; [apply (add_literals_sim _ c c' dag H)|].
  intros [c1 x] [c1' x'] [A1 A2]. cbn [fst snd] in *. subst x'. destruct x as [d1|]; [|split; auto]. destruct rest as [|r0 rest]; [split; auto|].
  destruct (fieldDescr e (r0 :: rest)) as [[rest' conf]|k|u]; [|split; auto|reflexivity]. destruct d1 as [d|]; [|reflexivity].
  eapply rsim_bind; [apply (addParser_sim c1 c1' d conf A1)|]. intros [c2 x] [c2' x'] [B1 B2]. cbn [fst snd] in *. subst x'. destruct x as [d2|]; [apply IH; auto|split; auto].
Qed.
Lemma addSamp_sim c c' rule dag tags : same_graph c c' -> rsim same_graph (addSampToTree e c rule dag tags) (addSampToTree e c' rule dag tags).
Proof.
  intros H. unfold addSampToTree. eapply rsim_bind; [apply (add_rule_sim _ c c' (Some dag) rule H)|]. intros [c1 x] [c1' x'] [A1 A2]. cbn [fst snd] in *. subst x'.
  destruct x as [[en|]|]; [|reflexivity|exact A1]. eapply rsim_bind; [apply (get_node_sim _ _ en (proj1 A1))|]. intros _ _ _. apply set_nodes_sim; auto.
  apply upd_node_sim; [apply A1|]. intros a b (D1 & D2 & D3 & D4). repeat split; auto.
Qed.

(** only the nodes change *)
Lemma closed0 h : closedN 0 h. Proof. split; [lia|]. intros. lia. Qed.
Lemma addParser_nodes c dag conf : opost (fun x => fst x = set_nodes c (c_nodes (fst x))) (addParser e c dag conf).
Proof.
  unfold addParser. eapply opost_bind; [apply (addInternal_fr e 0 _ c Seq (Some dag) conf None); [apply closed0|cbn; lia|exact I]|]. intros [c1 x] [[A _] _]. cbn in *. exact A.
Qed.
Lemma sn2 c h h' : set_nodes (set_nodes c h) h' = set_nodes c h'. Proof. reflexivity. Qed.
Lemma nodes_trans a b c : b = set_nodes a (c_nodes b) -> c = set_nodes b (c_nodes c) -> c = set_nodes a (c_nodes c).
Proof. intros H1 H2. rewrite H2, H1. reflexivity. Qed.
Lemma add_literals_nodes : forall l c dag, opost (fun x => fst x = set_nodes c (c_nodes (fst x))) (add_literals e c dag l).
Proof.
  induction l as [|ch l IH]; intros c dag; cbn [add_literals]; [apply set_nodes_self|]. destruct dag as [d|]; [|exact I].
  eapply opost_bind; [apply (addParser_nodes c d)|]. intros [c1 [d1|]] A; cbn [fst] in *; [|exact A]. eapply opost_mono; [apply IH|]. intros x Hx. eapply nodes_trans; eauto.
Qed.
Lemma add_rule_nodes : forall fuel c dag rule, opost (fun x => fst x = set_nodes c (c_nodes (fst x))) (add_rule e fuel c dag rule).
Proof.
  induction fuel as [|f IH]; intros c dag rule; cbn [add_rule]; [exact I|]. destruct rule as [|c0 rule]; [apply set_nodes_self|].
  destruct (literal_part (c0 :: rule)) as [lit rest]. eapply opost_bind; [apply (add_literals_nodes _ c dag)|].
  intros [c1 [d1|]] A; cbn [fst] in *; [|exact A]. destruct rest as [|r0 rest]; [exact A|]. destruct (fieldDescr e (r0 :: rest)) as [[rest' conf]|k|u]; [|exact A|exact I].
  destruct d1 as [d|]; [|exact I]. eapply opost_bind; [apply (addParser_nodes c1 d)|]. intros [c2 [d2|]] B; cbn [fst] in *; [|eapply nodes_trans; eauto].
  eapply opost_mono; [apply IH|]. intros x Hx. eapply nodes_trans; eauto. eapply nodes_trans; eauto.
Qed.
Lemma addSamp_nodes c rule dag tags : opost (fun c' => c' = set_nodes c (c_nodes c')) (addSampToTree e c rule dag tags).
Proof.
  unfold addSampToTree. eapply opost_bind; [apply (add_rule_nodes _ c (Some dag) rule)|]. intros [c1 [[en|]|]] A; cbn [fst] in *; [|exact I|exact A].
  destruct (get_node (c_nodes c1) en); [|exact I]. cbn [ebind opost]. eapply nodes_trans; eauto.
Qed.
End Sim.

(** ** The optimizer *)
Lemma optLit_sim : forall fuel h h' p, hsim h h' -> rsim (fun x y => hsim (fst x) (fst y) /\ snd x = snd y) (optLitPathCompact fuel h p) (optLitPathCompact fuel h' p).
Proof.
  induction fuel as [|f IH]; intros h h' p H; cbn [optLitPathCompact]; [reflexivity|]. destruct (negb _); [split; auto|].
  eapply rsim_bind; [apply (get_node_sim _ _ (p_child p) H)|]. intros n n' (A1 & A2 & A3 & A4). rewrite <- A1, <- A2, <- A4.
  destruct (_ || _)%bool; [split; auto|]. destruct (n_parsers n) as [|q [|? ?]]; try (split; auto; fail). destruct (negb _); [split; auto|].
  eapply rsim_bind; [apply (get_node_sim _ _ (p_child q) H)|]. intros m m' (B1 & B2 & B3 & B4). rewrite <- B4. destruct (negb _); [split; auto|].
  destruct (p_kind p); try reflexivity. destruct m0; try reflexivity. destruct (p_kind q); try reflexivity. destruct m0; try reflexivity.
  apply IH. apply free_sim. exact H.
Qed.
Definition co_go (f : list (option node) -> nat -> er (list (option node))) (nd : nat) :=
  fix go (done todo : list prs) (h : list (option node)) : er (list (option node)) :=
         match todo with
         | [] => EOk h
         | p :: todo' =>
             do* (h, p') := optLitPathCompact (heap_fuel h) h p in
             let h := upd_node h nd (fun n => set_parsers n (done ++ p' :: todo')) in
             do* h := f h (p_child p') in
             go (done ++ [p']) todo' h
         end.
Lemma componentOptimize_sim q : forall fuel h h' nd, hsim h h' -> rsim hsim (componentOptimize q fuel h nd) (componentOptimize q fuel h' nd).
Proof.
  induction fuel as [|f IH]; intros h h' nd H; cbn [componentOptimize]; [reflexivity|].
  eapply rsim_bind; [apply (get_node_sim _ _ nd H)|]. intros n n' (A1 & A2 & A3 & A4). cbv zeta. rewrite <- A1. set (ps := if Nat.ltb 1 _ then _ else _). clearbody ps.
  assert (HU : forall l h h', hsim h h' -> hsim (upd_node h nd (fun n => set_parsers n l)) (upd_node h' nd (fun n => set_parsers n l))).
  { intros l g g' Hg. apply upd_node_sim; auto. intros a b (D1 & D2 & D3 & D4). repeat split; auto. }
  change (rsim hsim (co_go (componentOptimize q f) nd [] ps (upd_node h nd (fun n => set_parsers n ps))) (co_go (componentOptimize q f) nd [] ps (upd_node h' nd (fun n => set_parsers n ps)))).
  assert (HG : forall todo done h h', hsim h h' -> rsim hsim (co_go (componentOptimize q f) nd done todo h) (co_go (componentOptimize q f) nd done todo h')).
  { clear - IH HU. induction todo as [|p todo IHt]; intros done h h' H; cbn [co_go]; [exact H|]. rewrite (heap_fuel_sim _ _ H).
    eapply rsim_bind; [apply optLit_sim; exact H|]. intros [h1 p1] [h1' p1'] [A1 A2]. cbn [fst snd] in *. subst p1'. eapply rsim_bind; [apply IH; apply HU; exact A1|]. intros h2 h2' H2. apply IHt. exact H2. }
  apply HG. apply HU. exact H.
Qed.
Lemma readIDs_sim : forall fuel h h' nd, hsim h h' -> rsim eq (componentReadIDs fuel h nd) (componentReadIDs fuel h' nd).
Proof.
  induction fuel as [|f IH]; intros h h' nd H; cbn [componentReadIDs]; [reflexivity|]. eapply rsim_bind; [apply (get_node_sim _ _ nd H)|]. intros n n' (A1 & _). rewrite <- A1. clear A1. generalize (n_parsers n). intros l0.
  induction l0 as [|p l IHl]; [reflexivity|]. cbn [fold_right]. destruct (_ && _)%bool; [reflexivity|]. eapply rsim_bind; [apply IH; exact H|]. intros _ _ _. exact IHl.
Qed.
Lemma optimize_sim q c c' : same_graph c c' -> rsim same_graph (optimize q c) (optimize q c').
Proof.
  intros H. unfold optimize. destruct H as (A & B & C). rewrite <- B, <- C.
  assert (HG : forall l h h', hsim h h' -> rsim hsim (optimize_all q h l) (optimize_all q h' l)).
  { induction l as [|i l IH]; intros h h' Hh; cbn [optimize_all]; [exact Hh|]. rewrite (heap_fuel_sim _ _ Hh). eapply rsim_bind; [apply componentOptimize_sim; exact Hh|]. intros h1 h1' H1. rewrite (heap_fuel_sim _ _ H1). eapply rsim_bind; [apply readIDs_sim; exact H1|]. intros. apply IH. auto. }
  eapply rsim_bind; [apply HG; exact A|]. intros h h' Hh. split; auto.
Qed.

(** ** The normalizer *)
Section Norm.
Variables (e : env) (c c' : ctx) (msg : text).
Hypothesis HS : same_graph c c'.
Hypothesis HO : opt_rule (c_opts c) = opt_rule (c_opts c').
Lemma tryParser_sim rec rec' rf p offs s : (forall nd o p s, rec nd o p s = rec' nd o p s) ->
  tryParser e c msg rec rf p offs s = tryParser e c' msg rec' rf p offs s.
Proof.
  intros Hr. unfold tryParser. destruct (p_kind p); auto.
  - erewrite repeat_loop_ext by exact Hr. reflexivity.
  - destruct HS as (_ & _ & <-). destruct (nth_error (c_types c) ti) as [[? ?]|]; auto. rewrite Hr. reflexivity.
Qed.
Lemma parser_loop_sim rec rec' rf nd : (forall nd o p s, rec nd o p s = rec' nd o p s) -> forall ps offs partial lpt s,
  parser_loop e c msg rec rf nd ps offs partial lpt s = parser_loop e c' msg rec' rf nd ps offs partial lpt s.
Proof.
  intros Hr. induction ps as [|p ps IH]; intros; cbn [parser_loop]; auto. rewrite (tryParser_sim rec rec') by exact Hr.
  destruct (tryParser e c' msg rec' rf p offs s) as [[[[pos v]|] s1]|u]; cbn [ebind]; auto.
  rewrite Hr. destruct (rec' _ _ _ _) as [[ok s2]|u]; cbn [ebind]; auto. destruct ok; auto. rewrite HO. reflexivity.
Qed.
Lemma normalizeRec_sim : forall fuel nd offs partial s, normalizeRec e c msg fuel nd offs partial s = normalizeRec e c' msg fuel nd offs partial s.
Proof.
  induction fuel as [|f IH]; intros; cbn [normalizeRec]; auto. unfold norm_step. pose proof (get_node_sim _ _ nd (proj1 HS)) as Hn.
  destruct (get_node (c_nodes c) nd) as [n|u], (get_node (c_nodes c') nd) as [n'|u']; cbn [ebind]; cbn in Hn; try tauto; [|congruence].
  destruct Hn as (-> & -> & _). rewrite (parser_loop_sim _ _ f nd IH). reflexivity.
Qed.
End Norm.
Lemma normalize_sim e c c' msg fuel js0 : same_rules c c' -> c_opts c = c_opts c' -> opt_loc (c_opts c) = false ->
  visible (normalize fuel e c msg js0) = visible (normalize fuel e c' msg js0).
Proof.
  intros [HS Ha] Ho Hl. unfold normalize. rewrite <- (proj1 (proj2 HS)), (normalizeRec_sim e c c' msg HS) by (rewrite Ho; auto).
  destruct (normalizeRec e c' msg fuel (c_root c) 0 false _) as [[ok s]|u]; cbn [ebind]; auto. destruct ok.
  - destruct (r_end s) as [en|]; auto. pose proof (get_node_sim _ _ en (proj1 HS)) as Hn.
    destruct (get_node (c_nodes c) en) as [n|u], (get_node (c_nodes c') en) as [n'|u']; cbn [ebind]; cbn in Hn; try tauto; [|cbn; congruence].
    destruct Hn as (_ & _ & Ht & _). rewrite Ht, Ha, <- Ho.
    match goal with |- visible (ebind ?x _) = visible (ebind ?x _) => destruct x; cbn [ebind visible]; auto end.
    unfold add_metadata. rewrite <- Ho, Hl. match goal with |- visible (ebind (ebind ?x _) _) = _ => destruct x as [o2|u]; cbn [ebind visible]; auto end.
    match goal with |- visible (ebind ?x _) = visible (ebind ?x _) => destruct x as [o3|u]; cbn [ebind visible]; auto end.
  - destruct (Nat.ltb _ _); reflexivity.
Qed.
