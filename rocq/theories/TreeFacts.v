(** * TreeFacts: graphs without sharing hold exactly the rules added. *)
From Verif Require Import Base Parsers Engine Pdag Samp GraphSpec RuleSpec BaseFacts EngineFacts2 HeapFacts BuildFacts2 BuildFacts3.
From Coq Require Import ZifyBool ZifyNat ZifyN.

(** ** equality of configurations *)
Fixpoint json_size (j : json) : nat :=
  match j with
  | JArr l => S (fold_right (fun x s => json_size x + s) 0 l)
  | JObj l => S (fold_right (fun x s => json_size (snd x) + s) 0 l)
  | _ => 1
  end.
Lemma json_eqb_eq : forall s a b, json_size a <= s -> json_eqb a b = true -> a = b.
Proof.
  induction s as [|s IH]; intros a b Hs; [destruct a; cbn in Hs; lia|].
  destruct a, b; cbn; try discriminate; intros H.
  - reflexivity.
  - apply Bool.eqb_prop in H. congruence.
  - apply Z.eqb_eq in H. congruence.
  - apply text_eqb_true in H. congruence.
  - apply text_eqb_true in H. congruence.
  - f_equal. cbn in Hs. revert l0 H. assert (HL : fold_right (fun x s => json_size x + s) 0 l <= s) by lia. clear Hs. revert HL.
    induction l as [|x l IHl]; intros HL [|y m] H; try discriminate; auto. cbn in HL. apply Bool.andb_true_iff in H as [H1 H2]. f_equal; [apply IH; auto; lia|apply IHl; auto; lia].
  - f_equal. cbn in Hs. revert l0 H. assert (HL : fold_right (fun x s => json_size (snd x) + s) 0 l <= s) by lia. clear Hs. revert HL.
    induction l as [|[k x] l IHl]; intros HL [|[k' y] m] H; try discriminate; auto. cbn in HL. apply Bool.andb_true_iff in H as [H1 H2]. apply Bool.andb_true_iff in H1 as [H0 H1]. apply text_eqb_true in H0. f_equal; [f_equal; auto; apply IH; auto; lia|apply IHl; auto; lia].
Qed.
Lemma json_eqb_true a b : json_eqb a b = true -> a = b. Proof. apply (json_eqb_eq (json_size a)). auto. Qed.
Lemma json_eqb_refl : forall s a, json_size a <= s -> json_eqb a a = true.
Proof.
  induction s as [|s IH]; intros a Hs; [destruct a; cbn in Hs; lia|]. destruct a; cbn; auto using text_eqb_refl, Bool.eqb_reflx, Z.eqb_refl.
  - cbn in Hs. assert (HL : fold_right (fun x s => json_size x + s) 0 l <= s) by lia. clear Hs. induction l as [|x l IHl]; auto. cbn in HL. rewrite IH by lia. cbn. apply IHl. lia.
  - cbn in Hs. assert (HL : fold_right (fun x s => json_size (snd x) + s) 0 l <= s) by lia. clear Hs. induction l as [|[k x] l IHl]; auto. cbn in HL. rewrite text_eqb_refl, IH by lia. cbn. apply IHl. lia.
Qed.
Lemma json_eqb_same a : json_eqb a a = true. Proof. apply (json_eqb_refl (json_size a)). auto. Qed.

(** ** one incoming reference *)
Lemma nodup_l {A} (l m : list A) : NoDup (l ++ m) -> NoDup l.
Proof. induction l as [|x l IH]; cbn; intros H; [constructor|]. inversion H; subst. constructor; auto. intros K. apply H2. apply in_or_app. auto. Qed.
Lemma nodup_r {A} (l m : list A) : NoDup (l ++ m) -> NoDup m.
Proof. induction l as [|x l IH]; cbn; auto. intros H. inversion H; auto. Qed.
Lemma upd_nth_ext {A} (f g : A -> A) : forall l i x, nth_error l i = Some x -> f x = g x -> upd_nth l i f = upd_nth l i g.
Proof. induction l as [|y l IH]; intros [|i] x H E; cbn in *; try discriminate; f_equal; eauto. congruence. Qed.
Lemma upd_node_ext h i n f g : live h i n -> f n = g n -> upd_node h i f = upd_node h i g.
Proof. intros H E. unfold upd_node. eapply upd_nth_ext; [exact H|]. cbn. congruence. Qed.
Lemma nodup_flat {A} (f : A -> list nat) : forall l i j x y t, NoDup (flat_map f l) -> nth_error l i = Some x -> nth_error l j = Some y -> In t (f x) -> In t (f y) -> i = j.
Proof.
  induction l as [|z l IH]; intros [|i] [|j] x y t ND Hx Hy Ht Ht'; cbn in *; try discriminate; auto.
  - injection Hx as ->. exfalso. revert ND. generalize (f x) Ht. intros fx. induction fx as [|u fx IHf]; intros Htx ND; [destruct Htx|].
    cbn in ND. inversion ND; subst. destruct Htx as [->|Htx]; [|auto]. apply H1. apply in_or_app. right. apply in_flat_map. exists y. split; [eapply nth_error_In; eauto|auto].
  - injection Hy as ->. exfalso. revert ND. generalize (f y) Ht'. intros fx. induction fx as [|u fx IHf]; intros Htx ND; [destruct Htx|].
    cbn in ND. inversion ND; subst. destruct Htx as [->|Htx]; [|auto]. apply H1. apply in_or_app. right. apply in_flat_map. exists x. split; [eapply nth_error_In; eauto|auto].
  - f_equal. apply (IH i j x y t); auto. eapply nodup_r; eauto.
Qed.
Lemma nodup_part {A} (f : A -> list nat) : forall l i x, NoDup (flat_map f l) -> nth_error l i = Some x -> NoDup (f x).
Proof.
  induction l as [|z l IH]; intros [|i] x ND Hx; cbn in *; try discriminate.
  - injection Hx as ->. eapply nodup_l; eauto.
  - eapply IH; [eapply nodup_r; eauto|eauto].
Qed.
Lemma one_parent h i j n m p q : NoDup (edges h) -> live h i n -> live h j m -> In p (n_parsers n) -> In q (n_parsers m) -> p_child p = p_child q -> i = j /\ p = q.
Proof.
  intros ND Hi Hj Hp Hq E.
  assert (Hp' : In (p_child p) (node_targets (Some n))) by (cbn; apply in_flat_map; exists p; split; auto; left; auto).
  assert (Hq' : In (p_child p) (node_targets (Some m))) by (cbn; apply in_flat_map; exists q; split; auto; left; auto).
  assert (EI : i = j) by (eapply (nodup_flat node_targets); [exact ND|exact Hi|exact Hj|exact Hp'|exact Hq']).
  split; auto. subst j. assert (n = m) by (eapply live_fun; eauto). subst m.
  pose proof (nodup_part node_targets h i _ ND Hi) as NP. cbn in NP. apply In_nth_error in Hp as [a Ha]. apply In_nth_error in Hq as [b Hb].
  assert (a = b). { eapply (nodup_flat targets); [exact NP|exact Ha|exact Hb|left; reflexivity|left; auto]. } congruence.
Qed.

Record tidy (e : env) (cx : ctx) : Prop := {
  t_dang : no_dangling (c_nodes cx) (owners cx);
  t_nodup : NoDup (edges (c_nodes cx) ++ owners cx);
  t_uniq : forall i n p q, live (c_nodes cx) i n -> In p (n_parsers n) -> In q (n_parsers n) -> p_conf p = p_conf q -> p = q;
  t_flat : forall i n p, live (c_nodes cx) i n -> In p (n_parsers n) -> flat_field e (c_types cx) (p_conf p) = Some (p_kind p, p_name p) }.

Lemma path_app h i ps j qs k : path h i ps j -> path h j qs k -> path h i (ps ++ qs) k.
Proof. induction 1; cbn; auto. intros. econstructor; eauto. Qed.
Lemma path_snoc_inv h ps p : forall i j, path h i (ps ++ [p]) j -> exists c n, path h i ps c /\ live h c n /\ In p (n_parsers n) /\ p_child p = j.
Proof.
  induction ps as [|q ps IH]; intros i j H; cbn in H; inversion H; subst.
  - inversion H6; subst. exists i, n. repeat split; auto. constructor.
  - apply IH in H6 as (c & m & A & B & C & D). exists c, m. repeat split; auto. econstructor; eauto.
Qed.
Lemma child_edge h i n p : live h i n -> In p (n_parsers n) -> In (p_child p) (edges h).
Proof. intros. apply edges_in. exists i, n, p. repeat split; auto. left; auto. Qed.
Lemma nodup_app_disj {A} (l m : list A) x : NoDup (l ++ m) -> In x l -> In x m -> False.
Proof. induction l as [|y l IH]; cbn; [intros _ []|]. intros ND [->|H] Hm; inversion ND; subst; [apply H1; apply in_or_app; auto|eauto]. Qed.

(** in a tidy graph a node is reached from one owner only, in one way only *)
Lemma path_unique h own : NoDup (edges h ++ own) -> forall ps qs r r' b, In r own -> In r' own -> path h r ps b -> path h r' qs b -> r = r' /\ ps = qs.
Proof.
  intros ND ps. induction ps as [|p ps IH] using rev_ind; intros qs r r' b Hr Hr' H1 H2.
  - inversion H1; subst. destruct qs as [|q qs IHq] using rev_ind; [inversion H2; subst; auto|]. exfalso.
    apply path_snoc_inv in H2 as (c & n & _ & Hn & Hq & <-). eapply nodup_app_disj; [exact ND|eapply child_edge; eauto|exact Hr].
  - apply path_snoc_inv in H1 as (c & n & H1 & Hn & Hp & E). destruct qs as [|q qs IHq] using rev_ind; [|clear IHq].
    + exfalso. inversion H2; subst. eapply nodup_app_disj; [exact ND|eapply child_edge; eauto|exact Hr'].
    + apply path_snoc_inv in H2 as (c' & n' & H2 & Hn' & Hq & E'). destruct (one_parent h c c' n n' p q) as [<- <-]; auto; [eapply nodup_l; eauto|congruence|].
      destruct (IH qs r r' c) as [-> ->]; auto.
Qed.
(** and a list of configurations leads to one place *)
Lemma path_by_confs e cx : tidy e cx -> forall ps qs r b c, path (c_nodes cx) r ps b -> path (c_nodes cx) r qs c -> confs ps = confs qs -> ps = qs /\ b = c.
Proof.
  intros T. induction ps as [|p ps IH]; intros [|q qs] r b c H1 H2 E; try discriminate; inversion H1; inversion H2; subst; auto.
  cbn in E. injection E as E1 E2. assert (n0 = n) by (eapply live_fun; eauto). subst n0. assert (q = p) by (eapply (t_uniq _ _ T); eauto). subst q.
  destruct (IH qs (p_child p) b c); auto. subst. auto.
Qed.

(** ** adding one field *)
Section Add.
Variable e : env.

Lemma repeat_conf_dummy : forall l pn wn pm cx r, repeat_conf e (fun _ _ _ => EUb OutOfFuel) l pn wn pm cx = EOk r -> exists pm', r = (cx, pn, wn, pm').
Proof.
  induction l as [|[k v] l IH]; intros pn wn pm cx r; cbn [repeat_conf]; [intros [= <-]; eauto|].
  destruct (text_eqb k (L "parser")); [|destruct (text_eqb k (L "while")); [unfold newPDAG; discriminate|destruct (caseeq k _); apply IH]].
  destruct (chkNoDupeDot e v) as [g|]; [|discriminate]. cbn [ebind]. destruct (negb g); [intros [= <-]; eauto|unfold newPDAG; discriminate].
Qed.

Lemma newParser_flat addp cx conf k nm : flat_field e (c_types cx) conf = Some (k, nm) ->
  exists pr, newParser e addp cx conf = EOk (cx, Some {| p_kind := k; p_name := nm; p_conf := conf; p_prio := pr; p_child := 0 |}) /\
    match k with KRepeat _ _ _ => False | _ => True end.
Proof.
  unfold flat_field, newParser. change (c_types (set_types _ (c_types cx))) with (c_types cx).
  destruct (jget conf "type") as [tv|]; [|discriminate].
  assert (HM : forall tv, (match tv with JNull => EOk (cx, None) | _ => EUb NullDeref end) = (match tv with JNull => EOk (cx, @None prs) | _ => EUb NullDeref end)) by reflexivity. clear HM.
  destruct tv; try discriminate;
  (match goal with |- context [need_str e ?x] => destruct (need_str e x) as [typ|] end; [|discriminate]; cbn [ebind]; cbv zeta;
   match goal with |- context [negb ?b] => destruct (negb b) end; [discriminate|];
   match goal with |- context [ebind ?x _] => match type of x with er (option text) => destruct x as [name|] end end; [|discriminate]; cbn [ebind];
   match goal with |- context [findType ?a ?b ?z] => destruct (if match typ with c :: _ => ceq c "@" | [] => false end then findType a b z else None) as [ti|] end;
   [cbn; intros [= <- <-]; eauto|];
   destruct (text_eqb typ (L "repeat"));
   [unfold construct_repeat;
    match goal with |- context [repeat_conf e ?d ?l None None false ?c] => destruct (repeat_conf e d l None None false c) as [[[[c1 pn] wn] pm]|] eqn:ER end; [|discriminate];
    apply repeat_conf_dummy in ER as [pm' [= -> -> -> ->]]; cbn; discriminate
   |]; destruct (simple_type e typ _) as [[pr m]|]; [|discriminate]; destruct m as [m|]; [|discriminate]; cbn [ebind p_kind]; destruct m; try discriminate; intros [= <- <-]; eauto).
Qed.

Lemma find_same_spec ps k conf : (exists q, In q ps /\ p_conf q = conf /\ find_same ps k conf = Some (p_child q)) \/
  (find_same ps k conf = None /\ forall q, In q ps -> p_conf q = conf -> parserName (p_kind q) <> parserName k).
Proof.
  induction ps as [|p ps IH]; cbn [find_same]; [right; split; auto; intros q []|]. unfold kind_prsid_eq.
  destruct (text_eqb (parserName (p_kind p)) (parserName k)) eqn:E1; cbn [andb].
  - destruct (json_eqb (p_conf p) conf) eqn:E2.
    + left. exists p. split; [left; auto|]. split; auto. apply json_eqb_true; auto.
    + destruct IH as [(q & A & B & C)|[A B]]; [left; exists q; split; [right; auto|auto]|]. right. split; auto. intros q [<-|Hq] Hc; auto. subst conf. rewrite json_eqb_same in E2. discriminate.
  - destruct IH as [(q & A & B & C)|[A B]]; [left; exists q; split; [right; auto|auto]|]. right. split; auto. intros q [<-|Hq] Hc; auto. apply text_eqb_false. auto.
Qed.

Lemma flat_obj types conf k nm : flat_field e types conf = Some (k, nm) -> exists l tv typ, conf = JObj l /\ jget conf "type" = Some tv /\ tv <> JNull /\ need_str e tv = EOk typ /\ text_eqb typ (L "alternative") = false.
Proof.
  unfold flat_field, newParser. destruct (jget conf "type") as [tv|] eqn:EJ; [|discriminate]. intros H.
  assert (HC : exists l, conf = JObj l) by (destruct conf; cbn in EJ; try discriminate; eauto). destruct HC as [l ->]. exists l, tv.
  assert (HN : tv <> JNull) by (destruct tv; congruence).
  assert (HT : exists typ, need_str e tv = EOk typ). { destruct tv; try congruence; destruct (need_str e _); eauto; discriminate H. } destruct HT as [typ HT]. exists typ.
  repeat split; auto. destruct (text_eqb typ (L "alternative")) eqn:EA; auto. exfalso. apply text_eqb_true in EA. subst typ.
  destruct tv; try congruence; rewrite HT in H; cbn [ebind] in H; discriminate H.
Qed.

(** [found]: the field is there already; [made]: it was appended with a fresh node. *)
Definition found (cx : ctx) (d : nat) (conf : json) (c : nat) (cx' : ctx) : Prop :=
  cx' = cx /\ exists n q, live (c_nodes cx) d n /\ In q (n_parsers n) /\ p_conf q = conf /\ p_child q = c.
Definition made (cx : ctx) (d : nat) (conf : json) (c : nat) (cx' : ctx) : Prop :=
  c = List.length (c_nodes cx) /\ exists n p, live (c_nodes cx) d n /\ p_conf p = conf /\ p_child p = c /\
    flat_field e (c_types cx) conf = Some (p_kind p, p_name p) /\ match p_kind p with KRepeat _ _ _ => False | _ => True end /\
    (forall q, In q (n_parsers n) -> p_conf q <> conf) /\
    cx' = set_nodes cx (upd_node (c_nodes cx ++ [Some new_node]) d (fun n => set_parsers n (n_parsers n ++ [p]))).

Lemma addInstance_flat addp cx d n conf k nm : tidy e cx -> live (c_nodes cx) d n -> List.length (n_parsers n) < 255 ->
  flat_field e (c_types cx) conf = Some (k, nm) ->
  exists cx' c, addInstance e addp cx conf (Some d) None = EOk (cx', Some c) /\ (found cx d conf c cx' \/ made cx d conf c cx').
Proof.
  intros T Hd HL HF. unfold addInstance. destruct (newParser_flat addp cx conf k nm HF) as (pr & -> & HK). cbn [ebind].
  rewrite (live_get _ _ _ Hd). cbn [ebind p_kind].
  destruct (find_same_spec (n_parsers n) k conf) as [(q & Hq & Hc & ->)|[-> HN]].
  - exists cx, (p_child q). split; [destruct k; [|destruct HK|]; cbn [ebind]; rewrite <- set_nodes_self; reflexivity|]. left. split; auto. exists n, q. auto.
  - cbn [newPDAG ebind]. rewrite nodes_set. eexists. exists (List.length (c_nodes cx)). split; [reflexivity|]. right. split; auto.
    exists n, {| p_kind := k; p_name := nm; p_conf := conf; p_prio := pr; p_child := List.length (c_nodes cx) |}. cbn [p_kind p_name p_conf p_child].
    repeat split; auto.
    + intros q Hq Hc. apply (HN q Hq Hc). pose proof (t_flat _ _ T _ _ _ Hd Hq) as HQ. rewrite Hc, HF in HQ. congruence.
    + rewrite set_nodes_set. f_equal. apply (upd_node_ext _ d n); [apply live_app; auto|]. unfold push_parser. replace (Nat.eqb (List.length (n_parsers n)) 255) with false by (symmetry; apply Nat.eqb_neq; lia). reflexivity.
Qed.

Lemma addParser_flat cx d n conf k nm : tidy e cx -> live (c_nodes cx) d n -> List.length (n_parsers n) < 255 ->
  flat_field e (c_types cx) conf = Some (k, nm) ->
  exists cx' c, addParser e cx d conf = EOk (cx', Some (Some c)) /\ (found cx d conf c cx' \/ made cx d conf c cx').
Proof.
  intros T Hd HL HF. destruct (flat_obj _ _ _ _ HF) as (l & tv & typ & -> & HJ & HN & HT & HA).
  unfold addParser. cbn [addInternal]. unfold addInternal_step. rewrite HJ.
  match goal with |- context [addInstance e ?a cx (JObj l) (Some d) None] => destruct (addInstance_flat a cx d n (JObj l) k nm T Hd HL HF) as (cx' & c & E & HR) end.
  exists cx', c. split; [|exact HR].
  destruct tv; try congruence; rewrite HT; cbn [ebind]; rewrite HA, E; reflexivity.
Qed.

(** ** the graph after appending *)
Lemma made_live cx d conf c cx' : made cx d conf c cx' -> exists n p, live (c_nodes cx) d n /\ p_conf p = conf /\ p_child p = c /\ c = List.length (c_nodes cx) /\
  (forall i m, live (c_nodes cx') i m <-> (i = d /\ m = set_parsers n (n_parsers n ++ [p])) \/ (i <> d /\ live (c_nodes cx) i m) \/ (i = c /\ m = new_node)).
Proof.
  intros (-> & n & p & Hd & Hc & Hch & HF & HK & HN & ->). exists n, p. rewrite nodes_set. repeat (split; [auto; fail|]).
  intros i m. pose proof (live_lt _ _ _ Hd). rewrite live_upd, !live_app. split.
  - intros [[A [B|[B C]]]|[E (n' & B & D)]]; [right; left; auto|right; right; split; [auto|congruence]|]. apply live_app in B as [B|[B C]]; [|lia]. left. split; auto. assert (n' = n) by (eapply live_fun; eauto). subst n'. exact D.
  - intros [[-> ->]|[[A B]|[-> ->]]]; [right; split; auto; exists n; split; [apply live_app; auto|auto]|left; split; auto|left; split; [lia|auto]].
Qed.

Lemma edges_app h x : edges (h ++ [x]) = edges h ++ node_targets x.
Proof. unfold edges. rewrite flat_map_app. cbn. rewrite app_nil_r. reflexivity. Qed.
Lemma edges_upd h d n f : live h d n -> exists a b, edges h = a ++ flat_map targets (n_parsers n) ++ b /\ edges (upd_node h d f) = a ++ flat_map targets (n_parsers (f n)) ++ b.
Proof.
  unfold edges, upd_node, live. revert d. induction h as [|x h IH]; intros [|d] H; cbn in *; try discriminate.
  - injection H as ->. exists [], (flat_map node_targets h). cbn. auto.
  - destruct (IH _ H) as (a & b & E1 & E2). exists (node_targets x ++ a), b. rewrite E1, E2, <- !app_assoc. auto.
Qed.

Lemma made_tidy cx d conf c cx' : tidy e cx -> made cx d conf c cx' -> tidy e cx'.
Proof.
  intros T HM. pose proof (made_live _ _ _ _ _ HM) as (n & p & Hd & Hc & Hch & Ec & HL).
  destruct HM as (_ & n0 & p0 & Hd0 & Hc0 & Hch0 & HF & HK & HN & ->). assert (n0 = n) by (eapply live_fun; eauto). subst n0.
  rewrite nodes_set in HL.
  assert (p0 = p). { assert (HLd : live (upd_node (c_nodes cx ++ [Some new_node]) d (fun n => set_parsers n (n_parsers n ++ [p0]))) d (set_parsers n (n_parsers n ++ [p0]))).
    { apply (live_upd_same _ d n (fun n => set_parsers n (n_parsers n ++ [p0]))). apply live_app. auto. }
    apply HL in HLd as [[_ E]|[[E _]|[-> E]]]; [|congruence|pose proof (live_lt _ _ _ Hd); lia].
    apply (f_equal n_parsers) in E. cbn in E. apply app_inv_head in E. congruence. }
  subst p0. set (h' := upd_node _ _ _) in *.
  assert (ET : targets p = [c]). { unfold targets. rewrite Hch. destruct (p_kind p); auto. destruct HK. }
  assert (EE : exists a b, edges (c_nodes cx) = a ++ b /\ edges h' = a ++ c :: b).
  { unfold h'. assert (Hd1 : live (c_nodes cx ++ [Some new_node]) d n) by (apply live_app; auto).
    destruct (edges_upd (c_nodes cx ++ [Some new_node]) d n (fun n => set_parsers n (n_parsers n ++ [p])) Hd1) as (a & b & E1 & E2).
    rewrite edges_app in E1. cbn in E1. rewrite app_nil_r in E1. cbn [set_parsers n_parsers] in E2. rewrite flat_map_app in E2. cbn [flat_map] in E2. rewrite ET in E2. cbn in E2.
    exists (a ++ flat_map targets (n_parsers n)), b. rewrite E1, E2, <- !app_assoc. auto. }
  destruct EE as (a & b & E1 & E2).
  assert (HO : forall j, In j (edges (c_nodes cx) ++ owners cx) -> j < List.length (c_nodes cx)). { intros j Hj. apply (t_dang _ _ T) in Hj as [m Hm]. eapply live_lt; eauto. }
  constructor; rewrite ?nodes_set; change (owners (set_nodes cx h')) with (owners cx); change (c_types (set_nodes cx h')) with (c_types cx).
  - intros j Hj. rewrite E2, <- app_assoc in Hj. cbn in Hj. apply in_app_or in Hj as [Hj|[<-|Hj]].
    + destruct (t_dang _ _ T j) as [m Hm]; [rewrite E1, <- app_assoc; apply in_or_app; auto|]. destruct (Nat.eq_dec j d) as [->|Hne]; [eexists; apply HL; left; eauto|exists m; apply HL; right; left; auto].
    + exists new_node. apply HL. right. right. auto.
    + destruct (t_dang _ _ T j) as [m Hm]; [rewrite E1, <- app_assoc; apply in_or_app; auto|]. destruct (Nat.eq_dec j d) as [->|Hne]; [eexists; apply HL; left; eauto|exists m; apply HL; right; left; auto].
  - pose proof (t_nodup _ _ T) as ND. rewrite E1, <- app_assoc in ND. rewrite E2, <- app_assoc. cbn.
    apply NoDup_Add with (a := c) (l := a ++ b ++ owners cx); [apply Add_app|]. split; auto.
    intros HI. assert (c < List.length (c_nodes cx)); [apply HO; rewrite E1, <- app_assoc; auto|lia].
  - intros i m q q' Hi Hq Hq' Ec'. apply HL in Hi as [[-> ->]|[[Hne Hi]|[-> ->]]]; [|eapply (t_uniq _ _ T); eauto|destruct Hq].
    cbn [set_parsers n_parsers] in Hq, Hq'. apply in_app_or in Hq as [Hq|[<-|[]]]; apply in_app_or in Hq' as [Hq'|[<-|[]]]; auto.
    + eapply (t_uniq _ _ T); eauto.
    + exfalso. apply (HN q Hq). congruence.
    + exfalso. apply (HN q' Hq'). congruence.
  - intros i m q Hi Hq. apply HL in Hi as [[-> ->]|[[Hne Hi]|[-> ->]]]; [|eapply (t_flat _ _ T); eauto|destruct Hq].
    cbn [set_parsers n_parsers] in Hq. apply in_app_or in Hq as [Hq|[<-|[]]]; [eapply (t_flat _ _ T); eauto|]. rewrite Hc. exact HF.
Qed.

(** ** a list of fields *)
(** [chain cx d cs en cx']: the configurations [cs] were added one after the other *)
Inductive chain : ctx -> nat -> list json -> nat -> ctx -> Prop :=
| ch_nil : forall cx d, chain cx d [] d cx
| ch_cons : forall cx d conf cs cx1 c en cx2, found cx d conf c cx1 \/ made cx d conf c cx1 -> chain cx1 c cs en cx2 -> chain cx d (conf :: cs) en cx2.

(** what a later context keeps of an earlier one *)
Record keeps (cx cx' : ctx) : Prop := {
  k_cx : cx' = set_nodes cx (c_nodes cx');
  k_len : List.length (c_nodes cx) <= List.length (c_nodes cx');
  k_live : forall i n, live (c_nodes cx) i n -> exists n', live (c_nodes cx') i n' /\ n_term n' = n_term n /\ n_tags n' = n_tags n /\ n_file n' = n_file n /\ n_line n' = n_line n /\ exists ex, n_parsers n' = n_parsers n ++ ex;
  k_new : forall i n', live (c_nodes cx') i n' -> (exists n, live (c_nodes cx) i n) \/ (List.length (c_nodes cx) <= i /\ n_term n' = false);
  k_old : forall a ps b, path (c_nodes cx') a ps b -> a < List.length (c_nodes cx) -> b < List.length (c_nodes cx) -> path (c_nodes cx) a ps b;
  k_out : forall i n p, live (c_nodes cx') i n -> In p (n_parsers n) -> List.length (c_nodes cx) <= i -> List.length (c_nodes cx) <= p_child p }.

Lemma keeps_refl cx : keeps cx cx.
Proof.
  constructor; auto using set_nodes_self.
  - intros i n H. exists n. repeat split; auto. exists []. rewrite app_nil_r. auto.
  - eauto.
  - intros i n p Hi _ HL. apply live_lt in Hi. lia.
Qed.
Lemma keeps_trans a b c : keeps a b -> keeps b c -> keeps a c.
Proof.
  intros A B. constructor.
  - rewrite (k_cx _ _ B), (k_cx _ _ A). reflexivity.
  - pose proof (k_len _ _ A). pose proof (k_len _ _ B). lia.
  - intros i n H. apply (k_live _ _ A) in H as (n1 & H1 & E1 & E2 & E3 & E4 & ex & E5). apply (k_live _ _ B) in H1 as (n2 & H2 & F1 & F2 & F3 & F4 & ex' & F5).
    exists n2. repeat split; try congruence. exists (ex ++ ex'). rewrite F5, E5, app_assoc. reflexivity.
  - intros i n' H. pose proof (k_len _ _ A). destruct (k_new _ _ B _ _ H) as [[n1 H1]|[H1 H2]]; [|right; split; auto; lia].
    destruct (k_new _ _ A _ _ H1) as [|[H2 H3]]; auto. right. split; auto. destruct (k_live _ _ B _ _ H1) as (n2 & H4 & E & _). assert (n2 = n') by (eapply live_fun; eauto). congruence.
  - intros x ps y H Hx Hy. pose proof (k_len _ _ A). apply (k_old _ _ A); auto. apply (k_old _ _ B); auto; lia.
  - intros i n p Hi Hp HL. pose proof (k_len _ _ A). destruct (Nat.lt_ge_cases i (List.length (c_nodes b))) as [Hb|Hb].
    + destruct (k_new _ _ B _ _ Hi) as [[n1 H1]|[H1 _]]; [|lia]. assert (HP : path (c_nodes c) i [p] (p_child p)) by (econstructor; eauto; constructor).
      destruct (Nat.lt_ge_cases (p_child p) (List.length (c_nodes b))) as [Hc|Hc]; [|lia]. apply (k_old _ _ B) in HP; auto. inversion HP; subst. eapply (k_out _ _ A); eauto.
    + pose proof (k_out _ _ B _ _ _ Hi Hp Hb). lia.
Qed.
Lemma made_keeps cx d conf c cx' : tidy e cx -> made cx d conf c cx' -> keeps cx cx'.
Proof.
  intros T HM. pose proof (made_live _ _ _ _ _ HM) as (n & p & Hd & Hc & Hch & Ec & HL). constructor.
  - destruct HM as (_ & n0 & p0 & _ & _ & _ & _ & _ & _ & ->). rewrite nodes_set. reflexivity.
  - destruct HM as (_ & n0 & p0 & _ & _ & _ & _ & _ & _ & ->). rewrite nodes_set. unfold upd_node. rewrite upd_nth_length, app_length. lia.
  - intros i m H. destruct (Nat.eq_dec i d) as [->|Hne].
    + assert (m = n) by (eapply live_fun; eauto). subst m. eexists. split; [apply HL; left; auto|]. repeat split; auto. eexists; reflexivity.
    + exists m. split; [apply HL; right; left; auto|]. repeat split; auto. exists []. rewrite app_nil_r. auto.
  - intros i n' H. apply HL in H as [[-> ->]|[[Hne Hi]|[-> ->]]]; [left; eauto|left; eauto|right; split; [lia|reflexivity]].
  - intros a ps b H. induction H as [i|i m q ps j Hi Hq HP IH]; intros Ha Hb; [constructor|].
    apply HL in Hi as [[-> ->]|[[Hne Hi]|[-> ->]]]; [| |destruct Hq].
    + cbn [set_parsers n_parsers] in Hq. apply in_app_or in Hq as [Hq|[<-|[]]].
      * econstructor; eauto. apply IH; auto. destruct (t_dang _ _ T (p_child q)) as [mm Hmm]; [apply in_or_app; left; eapply child_edge; eauto|]. eapply live_lt; eauto.
      * exfalso. rewrite Hch in HP. inversion HP as [|? m' q' ? ? Hm' Hq' _]; subst; [lia|]. apply HL in Hm' as [[Ed _]|[[_ Hm']|[_ ->]]]; [pose proof (live_lt _ _ _ Hd); lia|apply live_lt in Hm'; lia|destruct Hq'].
    + econstructor; eauto. apply IH; auto. destruct (t_dang _ _ T (p_child q)) as [mm Hmm]; [apply in_or_app; left; eapply child_edge; eauto|]. eapply live_lt; eauto.
  - intros i m q Hi Hq Hl. apply HL in Hi as [[-> ->]|[[Hne Hi]|[-> ->]]]; [pose proof (live_lt _ _ _ Hd); lia|apply live_lt in Hi; lia|destruct Hq].
Qed.
Lemma keeps_path cx cx' : keeps cx cx' -> forall a ps b, path (c_nodes cx) a ps b -> path (c_nodes cx') a ps b.
Proof.
  intros K a ps b H. induction H as [|i n p ps j Hi Hp HP IH]; [constructor|]. apply (k_live _ _ K) in Hi as (n' & Hi & _ & _ & _ & _ & ex & E). econstructor; eauto. rewrite E. apply in_or_app. auto.
Qed.

Lemma chain_ok : forall cs cx d en cx', chain cx d cs en cx' -> tidy e cx -> tidy e cx' /\ keeps cx cx' /\ exists ps, path (c_nodes cx') d ps en /\ confs ps = cs.
Proof.
  intros cs cx d en cx' H. induction H as [cx d|cx d conf cs cx1 c en cx2 HS HC IH]; intros T.
  - split; auto. split; [apply keeps_refl|]. exists []. split; [constructor|reflexivity].
  - assert (H1 : tidy e cx1 /\ keeps cx cx1 /\ exists n q, live (c_nodes cx1) d n /\ In q (n_parsers n) /\ p_conf q = conf /\ p_child q = c).
    { destruct HS as [(-> & n & q & A & B & C & D)|HM].
      - split; auto. split; [apply keeps_refl|]. exists n, q. auto.
      - split; [eapply made_tidy; eauto|]. split; [eapply made_keeps; eauto|]. destruct (made_live _ _ _ _ _ HM) as (n & p & Hd & Hc & Hch & Ec & HL).
        exists (set_parsers n (n_parsers n ++ [p])), p. split; [apply HL; auto|]. split; [cbn; apply in_or_app; right; left; auto|auto]. }
    destruct H1 as (T1 & K1 & n & q & Hn & Hq & Hqc & Hqh). destruct (IH T1) as (T2 & K2 & ps & HP & HC2). split; auto. split; [eapply keeps_trans; eauto|].
    destruct (k_live _ _ K2 _ _ Hn) as (n' & Hn' & _ & _ & _ & _ & ex & E). exists (q :: ps). split; [econstructor; [exact Hn'|rewrite E; apply in_or_app; auto|rewrite Hqh; exact HP]|unfold confs in *; cbn; congruence].
Qed.

(** ** room: a rule adds at most one field to any node *)
Definition small (cx : ctx) (K : nat) : Prop := forall i n, live (c_nodes cx) i n -> List.length (n_parsers n) <= K.
Definition nflat (cx : ctx) (conf : json) : Prop := exists k nm, flat_field e (c_types cx) conf = Some (k, nm).

Fixpoint add_confs (cx : ctx) (dag : option nat) (cs : list json) : er (ctx * option (option nat)) :=
  match cs with
  | [] => EOk (cx, Some dag)
  | conf :: cs' =>
      match dag with
      | None => EUb NullDeref
      | Some d => do* (cx, r) := addParser e cx d conf in
                  match r with None => EOk (cx, None) | Some dag' => add_confs cx dag' cs' end
      end
  end.

Lemma made_types cx d conf c cx' : made cx d conf c cx' -> c_types cx' = c_types cx.
Proof. intros (_ & n & p & _ & _ & _ & _ & _ & _ & ->). reflexivity. Qed.

Lemma chain_fresh : forall cs cx d n K, tidy e cx -> live (c_nodes cx) d n -> n_parsers n = [] -> small cx (S K) -> Forall (nflat cx) cs ->
  exists en cx', add_confs cx (Some d) cs = EOk (cx', Some (Some en)) /\ chain cx d cs en cx' /\ small cx' (S K).
Proof.
  induction cs as [|conf cs IH]; intros cx d n K T Hd Hn HS HF; cbn [add_confs].
  - exists d, cx. split; auto. split; [constructor|auto].
  - inversion HF as [|? ? [k [nm Hk]] HF']; subst. destruct (addParser_flat cx d n conf k nm T Hd) as (cx1 & c & E & HR); [rewrite Hn; cbn; lia|exact Hk|]. rewrite E. cbn [ebind].
    destruct HR as [(_ & n0 & q & A & B & _)|HM]; [assert (n0 = n) by (eapply live_fun; eauto); subst n0; rewrite Hn in B; destruct B|].
    pose proof (made_live _ _ _ _ _ HM) as (n1 & p & Hd1 & Hc & Hch & Ec & HL). assert (n1 = n) by (eapply live_fun; eauto). subst n1.
    destruct (IH cx1 c new_node K) as (en & cx2 & E2 & HC & HS2).
    + eapply made_tidy; eauto.
    + apply HL. right. right. auto.
    + reflexivity.
    + intros i m Hi. apply HL in Hi as [[-> ->]|[[_ Hi]|[-> ->]]]; [cbn [set_parsers n_parsers]; rewrite Hn; cbn; lia|eauto|cbn; lia].
    + unfold nflat. rewrite (made_types _ _ _ _ _ HM). exact HF'.
    + exists en, cx2. split; [exact E2|]. split; [econstructor; eauto|exact HS2].
Qed.
Lemma chain_exists : forall cs cx d n K, tidy e cx -> live (c_nodes cx) d n -> K < 255 -> small cx K -> Forall (nflat cx) cs ->
  exists en cx', add_confs cx (Some d) cs = EOk (cx', Some (Some en)) /\ chain cx d cs en cx' /\ small cx' (S K).
Proof.
  induction cs as [|conf cs IH]; intros cx d n K T Hd HK HS HF; cbn [add_confs].
  - exists d, cx. split; auto. split; [constructor|]. intros i m Hi. specialize (HS _ _ Hi). lia.
  - inversion HF as [|? ? [k [nm Hk]] HF']; subst. destruct (addParser_flat cx d n conf k nm T Hd) as (cx1 & c & E & HR); [specialize (HS _ _ Hd); lia|exact Hk|]. rewrite E. cbn [ebind].
    destruct HR as [HFo|HM].
    + pose proof HFo as (-> & n0 & q & A & B & _ & D).
      destruct (t_dang _ _ T c) as [m Hm]; [apply in_or_app; left; rewrite <- D; eapply child_edge; eauto|].
      destruct (IH cx c m K T Hm HK HS HF') as (en & cx2 & E2 & HC & HS2). exists en, cx2. split; [exact E2|]. split; [econstructor; eauto|exact HS2].
    + pose proof (made_live _ _ _ _ _ HM) as (n1 & p & Hd1 & Hc & Hch & Ec & HL). assert (n1 = n) by (eapply live_fun; eauto). subst n1.
      destruct (chain_fresh cs cx1 c new_node K) as (en & cx2 & E2 & HC & HS2).
      * eapply made_tidy; eauto.
      * apply HL. right. right. auto.
      * reflexivity.
      * intros i m Hi. apply HL in Hi as [[-> ->]|[[_ Hi]|[-> ->]]]; [cbn [set_parsers n_parsers]; rewrite app_length; cbn; specialize (HS _ _ Hd); lia|specialize (HS _ _ Hi); lia|cbn; lia].
      * unfold nflat. rewrite (made_types _ _ _ _ _ HM). exact HF'.
      * exists en, cx2. split; [exact E2|]. split; [econstructor; eauto|exact HS2].
Qed.

(** ** rule texts *)
Lemma add_literals_confs l : forall cx dag, add_literals e cx dag l = add_confs cx dag (map literal_conf l).
Proof.
  induction l as [|c l IH]; intros cx dag; cbn [add_literals add_confs map]; auto. destruct dag as [d|]; auto.
  destruct (addParser e cx d (literal_conf c)) as [[cx1 [r|]]|]; cbn [ebind]; auto.
Qed.
Lemma add_confs_app l m : forall cx dag, add_confs cx dag (l ++ m) = (do* (cx, r) := add_confs cx dag l in match r with None => EOk (cx, None) | Some dag => add_confs cx dag m end).
Proof.
  induction l as [|c l IH]; intros cx dag; cbn [add_confs app ebind]; auto. destruct dag as [d|]; auto.
  destruct (addParser e cx d c) as [[cx1 [r|]]|]; cbn [ebind]; auto.
Qed.
Lemma literal_part_len : forall k u lit rest, List.length u <= k -> literal_part u = (lit, rest) -> List.length rest <= List.length u.
Proof.
  induction k as [|k IH]; intros u lit rest HK H; [destruct u; cbn in *; [injection H as <- <-; auto|lia]|].
  destruct u as [|c u]; cbn in H; [injection H as <- <-; auto|]. destruct (ceq c "%").
  - destruct u as [|d u]; [injection H as <- <-; cbn; lia|]. destruct (ceq d "%").
    + destruct (literal_part u) as [l r] eqn:E. injection H as <- <-. apply IH in E; cbn in *; lia.
    + injection H as <- <-. cbn. lia.
  - destruct (literal_part u) as [l r] eqn:E. injection H as <- <-. apply IH in E; cbn in *; lia.
Qed.
Lemma skipn_le {A} k (l : list A) : List.length (skipn k l) <= List.length l. Proof. rewrite skipn_length. lia. Qed.
Lemma legacy_len u rest conf : parseLegacyFieldDescr e u = Ok (rest, conf) -> List.length rest < List.length u.
Proof.
  unfold parseLegacyFieldDescr. cbv zeta.
  destruct (negb _); [|discriminate]. cbn [bind]. destruct (negb (Nat.eqb _ (List.length u))); [|discriminate]. cbn [bind]. destruct (negb (Nat.eqb _ 0)); [|discriminate]. cbn [bind].
  set (u1 := skipn (S _) u). set (u2 := skipn _ u1).
  assert (H1 : List.length u2 <= List.length u). { unfold u2, u1. pose proof (skipn_le (scan (fun c => negb (ceq c ":" || ceq c "{" || ceq c "%")) (skipn (S (scan (fun c => negb (ceq c ":")) u)) u)) (skipn (S (scan (fun c => negb (ceq c ":")) u)) u)). pose proof (skipn_le (S (scan (fun c => negb (ceq c ":")) u)) u). lia. }
  clearbody u2. destruct u2 as [|c u2]; [discriminate|].
  assert (HU : forall js u3, List.length u3 <= List.length (c :: u2) -> forall rest conf,
    match u3 with [] => Ub UninitRead | c0 :: u' => let '(ed, u0) := if ceq c0 "%" then (None, u') else let k := scan (fun c1 => negb (ceq c1 "%")) u' in (Some (unescape e (firstn k u')), skipn (S k) u') in
      Ok (u0, JObj (match js with Some (JObj l) => fold_left (fun o kv => obj_add o (fst kv) (snd kv)) l (match ed with Some x => obj_add (str_obj [("name"%string, cstr (firstn (scan (fun c => negb (ceq c ":")) u) u)); ("type"%string, drop_nul (rtrim (firstn (scan (fun c => negb (ceq c ":" || ceq c "{" || ceq c "%")) u1) u1)))]) (L "extradata") (JStr (cstr (nul_blank x))) | None => str_obj [("name"%string, cstr (firstn (scan (fun c => negb (ceq c ":")) u) u)); ("type"%string, drop_nul (rtrim (firstn (scan (fun c => negb (ceq c ":" || ceq c "{" || ceq c "%")) u1) u1)))] end) | _ => match ed with Some x => obj_add (str_obj [("name"%string, cstr (firstn (scan (fun c => negb (ceq c ":")) u) u)); ("type"%string, drop_nul (rtrim (firstn (scan (fun c => negb (ceq c ":" || ceq c "{" || ceq c "%")) u1) u1)))]) (L "extradata") (JStr (cstr (nul_blank x))) | None => str_obj [("name"%string, cstr (firstn (scan (fun c => negb (ceq c ":")) u) u)); ("type"%string, drop_nul (rtrim (firstn (scan (fun c => negb (ceq c ":" || ceq c "{" || ceq c "%")) u1) u1)))] end end)) end = Ok (rest, conf) -> List.length rest < List.length u).
  { intros js u3 H3 r cf. destruct u3 as [|c0 u']; [discriminate|]. cbn [List.length] in H3. destruct (ceq c0 "%"); cbv zeta.
    - intros [= <- _]. cbn in *. lia.
    - set (k := scan _ u'). intros [= <- _]. pose proof (skipn_le (S k) u'). cbn in *. lia. }
  destruct (ceq c "{").
  - destruct (json_tok e (c :: u2)) as [[j k]|]; intros H.
    + apply (HU (Some j) (skipn k (c :: u2))) in H; auto. apply skipn_le.
    + apply (HU None (skipn (json_erroff e (c :: u2)) (c :: u2))) in H; auto. apply skipn_le.
  - intros H. apply (HU None (c :: u2)) in H; auto.
Qed.
Lemma fieldDescr_len u rest conf : u <> [] -> fieldDescr e u = Ok (rest, conf) -> List.length rest < List.length u.
Proof.
  intros Hu. unfold fieldDescr. cbv zeta. set (v := skipn (scan isspace (skipn 1 u)) (skipn 1 u)).
  assert (HV : List.length v <= List.length u). { unfold v. pose proof (skipn_le (scan isspace (skipn 1 u)) (skipn 1 u)). pose proof (skipn_le 1 u). lia. } clearbody v.
  destruct v as [|c v]; [discriminate|]. destruct (ceq c "{" || ceq c "[")%bool.
  - destruct (json_tok e (c :: v)) as [[j k]|]; [|discriminate]. assert (HR : match skipn k (c :: v) with d :: u' => if ceq d "%" then Ok (u', j) else Bad 0 | [] => Bad 0 end = Ok (rest, conf) -> List.length rest < List.length u).
    { destruct (skipn k (c :: v)) as [|d u'] eqn:E; [discriminate|]. destruct (ceq d "%"); [|discriminate]. intros [= <- _]. pose proof (skipn_le k (c :: v)) as HH. rewrite E in HH. cbn in *. lia. }
    destruct j; try discriminate; exact HR.
  - intros H. apply legacy_len in H. lia.
Qed.
Lemma add_rule_confs rule cs : rule_confs e rule cs -> forall fuel cx dag, List.length rule < fuel -> add_rule e fuel cx dag rule = add_confs cx dag cs.
Proof.
  induction 1 as [|rule lit Hr HL|rule lit rest rest' conf cs HL Hr HF HC IH]; intros fuel cx dag Hf; (destruct fuel as [|fuel]; [lia|]); cbn [add_rule].
  - reflexivity.
  - destruct rule as [|c u]; [congruence|]. rewrite HL, add_literals_confs. fold (literals e lit). destruct (add_confs cx dag (literals e lit)) as [[cx1 [dg|]]|]; reflexivity.
  - pose proof (literal_part_len (List.length rule) _ _ _ (le_n _) HL) as H1. pose proof (fieldDescr_len _ _ _ Hr HF) as H2.
    destruct rule as [|c u]; [cbn in HL; injection HL as _ <-; congruence|]. rewrite HL, add_literals_confs. fold (literals e lit). rewrite add_confs_app.
    destruct (add_confs cx dag (literals e lit)) as [[cx1 [dg|]]|]; cbn [ebind]; auto. destruct rest as [|r rest]; [congruence|]. rewrite HF. cbn [add_confs]. destruct dg as [d|]; auto.
    destruct (addParser e cx1 d conf) as [[cx2 [r2|]]|]; cbn [ebind]; auto. apply IH. lia.
Qed.
End Add.
